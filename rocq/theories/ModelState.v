(* Model of the class Model: configuration, lazily built caches and the calls on them.
   cppcore/src/Model.cpp, cppcore/include/Model.hpp, cppcore/src/leads/Leads.cpp *)
From Verif Require Import Base Scalar Foundation Lattice SystemBuild.

Inductive res (A : Type) : Type := Ret (a : A) | Raise.
Arguments Ret {A}. Arguments Raise {A}.

(** Outcome of building a real matrix: the builder may signal [ComplexOverride]
    (HamiltonianModifiers.hpp:15-25), or raise something else. *)
Inductive hres (H : Type) : Type := HRet (h : H) | HComplex | HRaise.
Arguments HRet {H}. Arguments HComplex {H}. Arguments HRaise {H}.

Section Model.
  Variable R : scalar.
  Variable P : Type.                    (* Cartesian *)
  Variable padd : P -> P -> P.
  Variable peqb : P -> P -> bool.
  (** Contents that the state machine does not look into: vertices and [contains] of a shape, a
      symmetry, modifier functions and generator functions. *)
  Variables Shp Sy Fn : Type.

  Record shape := Shape { sh_body : Shp; sh_offset : P }.
  (** StructureModifiers.hpp *)
  Inductive smod := Plain (f : Fn) | GenSites (n : name) (e : mat R) (f : Fn) | GenHops (n : name) (e : mat R) (f : Fn).
  (** HamiltonianModifiers.hpp:30-60 *)
  Record hmod := HMod { hm_fn : Fn; hm_complex : bool; hm_double : bool }.

  (** Model.hpp:94-114, everything the user sets *)
  Record config := Cfg {
    c_ndim : nat;                       (* lattice.ndim(), fixed *)
    c_offset : P;                       (* lattice.get_offset() *)
    c_sites : list (name * mat R); c_hops : list (name * mat R);     (* registries *)
    c_prim : idx3; c_shape : option shape; c_sym : option Sy; c_wave : P;
    c_smods : list smod; c_onsite : list hmod; c_hopping : list hmod;
    c_leads : list (Z * shape)          (* lead specifications: direction and shape *)
  }.

  Inductive mcall :=
  | AddPrimitive (size : idx3) | AddShape (s : shape) | AddSymmetry (s : option Sy)
  | AttachLead (dir : Z) (s : shape)
  | AddStructMod (f : Fn) | AddOnsite (m : hmod) | AddHoppingMod (m : hmod)
  | AddSiteGen (n : name) (e : mat R) (f : Fn) | AddHopGen (n : name) (e : mat R) (f : Fn)
  | SetWave (k : P)
  | ClearStructMods | ClearHamMods | ClearAllMods.

  (** What a call does to the caches: nothing, drop the Hamiltonians, drop everything. *)
  Inductive effect := KeepCaches | ClearHam | ClearStructure.

  Definition with_prim c x := Cfg (c_ndim c) (c_offset c) (c_sites c) (c_hops c) x (c_shape c) (c_sym c) (c_wave c) (c_smods c) (c_onsite c) (c_hopping c) (c_leads c).
  Definition with_shape c x := Cfg (c_ndim c) (c_offset c) (c_sites c) (c_hops c) (c_prim c) x (c_sym c) (c_wave c) (c_smods c) (c_onsite c) (c_hopping c) (c_leads c).
  Definition with_offset c x := Cfg (c_ndim c) x (c_sites c) (c_hops c) (c_prim c) (c_shape c) (c_sym c) (c_wave c) (c_smods c) (c_onsite c) (c_hopping c) (c_leads c).
  Definition with_sym c x := Cfg (c_ndim c) (c_offset c) (c_sites c) (c_hops c) (c_prim c) (c_shape c) x (c_wave c) (c_smods c) (c_onsite c) (c_hopping c) (c_leads c).
  Definition with_wave c x := Cfg (c_ndim c) (c_offset c) (c_sites c) (c_hops c) (c_prim c) (c_shape c) (c_sym c) x (c_smods c) (c_onsite c) (c_hopping c) (c_leads c).
  Definition with_smods c x := Cfg (c_ndim c) (c_offset c) (c_sites c) (c_hops c) (c_prim c) (c_shape c) (c_sym c) (c_wave c) x (c_onsite c) (c_hopping c) (c_leads c).
  Definition with_hmods c x y := Cfg (c_ndim c) (c_offset c) (c_sites c) (c_hops c) (c_prim c) (c_shape c) (c_sym c) (c_wave c) (c_smods c) x y (c_leads c).
  Definition with_sites c x := Cfg (c_ndim c) (c_offset c) x (c_hops c) (c_prim c) (c_shape c) (c_sym c) (c_wave c) (c_smods c) (c_onsite c) (c_hopping c) (c_leads c).
  Definition with_hops c x := Cfg (c_ndim c) (c_offset c) (c_sites c) x (c_prim c) (c_shape c) (c_sym c) (c_wave c) (c_smods c) (c_onsite c) (c_hopping c) (c_leads c).
  Definition with_leads c x := Cfg (c_ndim c) (c_offset c) (c_sites c) (c_hops c) (c_prim c) (c_shape c) (c_sym c) (c_wave c) (c_smods c) (c_onsite c) (c_hopping c) x.

  (** Lattice.cpp:127-133 [set_offset] *)
  Variable offset_ok : P -> bool.

  (** Model.cpp:15-19: dimensions that the lattice does not have must be 1 *)
  Definition primitive_ok (ndim : nat) (size : idx3) : bool :=
    forallb (fun dn => (dn =? 1)%Z) (skipn ndim [ix size; iy size; iz size]).

  (** Model.cpp:13-85 and Model.hpp:81-83: new configuration, effect on the caches, [true] when
      the call returns and [false] when it raises. *)
  Definition configure (m : mcall) (c : config) : config * effect * bool :=
    match m with
    | AddPrimitive size =>                                            (* 13-21 *)
        let c' := with_prim c size in
        if primitive_ok (c_ndim c) size then (c', ClearStructure, true) else (c', KeepCaches, false)
    | SetWave k =>                                                    (* 23-28 *)
        if peqb (c_wave c) k then (c, KeepCaches, true) else (with_wave c k, ClearHam, true)
    | AddShape s =>                                                   (* 30-34 *)
        let c' := with_shape c (Some s) in
        let o := padd (c_offset c) (sh_offset s) in
        if offset_ok o then (with_offset c' o, ClearStructure, true) else (c', KeepCaches, false)
    | AddSymmetry s => (with_sym c s, ClearStructure, true)            (* 36-39 *)
    | AttachLead dir s =>                                             (* 41-53 *)
        if (dir =? 0)%Z then (c, KeepCaches, false)
        else if c_ndim c =? 1 then (c, KeepCaches, false)
        else if (Z.of_nat (c_ndim c) <? Z.abs dir)%Z then (c, KeepCaches, false)
        else (with_leads c (c_leads c ++ [(dir, s)]), ClearStructure, true)
    | AddStructMod f => (with_smods c (c_smods c ++ [Plain f]), ClearStructure, true)          (* 55-63 *)
    | AddOnsite h => (with_hmods c (c_onsite c ++ [h]) (c_hopping c), ClearHam, true)           (* 65-68 *)
    | AddHoppingMod h => (with_hmods c (c_onsite c) (c_hopping c ++ [h]), ClearHam, true)       (* 70-73 *)
    | AddSiteGen n e f =>                                             (* 75-79 *)
        let c' := with_smods c (c_smods c ++ [GenSites n e f]) in
        match register_family onsite_ok n e (c_sites c) with
        | Ok reg => (with_sites c' reg, ClearStructure, true)
        | _ => (c', KeepCaches, false)
        end
    | AddHopGen n e f =>                                              (* 81-85 *)
        let c' := with_smods c (c_smods c ++ [GenHops n e f]) in
        match register_family hopping_ok n e (c_hops c) with
        | Ok reg => (with_hops c' reg, ClearStructure, true)
        | _ => (c', KeepCaches, false)
        end
    | ClearStructMods => (with_smods c [], KeepCaches, true)           (* Model.hpp:81 *)
    | ClearHamMods => (with_hmods c [] [], KeepCaches, true)           (* Model.hpp:82 *)
    | ClearAllMods => (with_hmods (with_smods c []) [] [], KeepCaches, true)
    end.

  (** The part of the configuration that [make_system] reads (Model.cpp:142-176): not the wave
      vector and not the Hamiltonian modifiers. *)
  Record sconfig := SCfg {
    s_ndim : nat; s_offset : P; s_sites : list (name * mat R); s_hops : list (name * mat R);
    s_prim : idx3; s_shape : option shape; s_sym : option Sy; s_smods : list smod; s_leads : list (Z * shape)
  }.
  Definition structure_of (c : config) : sconfig :=
    SCfg (c_ndim c) (c_offset c) (c_sites c) (c_hops c) (c_prim c) (c_shape c) (c_sym c) (c_smods c) (c_leads c).

  (** The builders, as functions of the configuration: [found] makes the foundation and applies
      symmetry, foundation modifiers and lead attachment areas (Model.cpp:143-159), [lead_one]
      one lead structure (Structure.cpp), [finish] the rest of [make_system] (162-175);
      [real_ham] / [complex_ham] are [ham::make], [lead_ham] is [HamiltonianPair].  User
      functions are deterministic. *)
  Variables F LS Sys H LH : Type.
  Variable found : sconfig -> res F.
  Variable lead_one : sconfig -> F -> Z * shape -> res LS.
  Variable finish : sconfig -> F -> res Sys.
  Variable real_ham : config -> Sys -> hres H.
  Variable complex_ham : config -> Sys -> res H.
  Variable lead_ham : config -> bool -> LS -> res LH.   (* the flag is [is_complex] *)

  Record state := St {
    st_cfg : config; st_sys : option Sys; st_ham : option H;
    st_ls : list LS; st_lh : list LH; st_over : bool
  }.
  Definition fresh (c : config) : state := St c None None [] [] false.

  (** Model.cpp:206-215, Leads.cpp:32-39 *)
  Definition clear (e : effect) (st : state) : state :=
    match e with
    | KeepCaches => st
    | ClearHam => St (st_cfg st) (st_sys st) None (st_ls st) [] (st_over st)
    | ClearStructure => St (st_cfg st) None None [] [] (st_over st)
    end.

  Definition do_call (m : mcall) (st : state) : state * bool :=
    let r := configure m (st_cfg st) in
    (clear (snd (fst r)) (St (fst (fst r)) (st_sys st) (st_ham st) (st_ls st) (st_lh st) (st_over st)), snd r).

  (** [for (x : l) v.emplace_back(f(x))]: what was made before an exception stays. *)
  Fixpoint emplace_all {A B} (f : A -> res B) (l : list A) (v : list B) : list B * bool :=
    match l with
    | [] => (v, true)
    | x :: t => match f x with Ret y => emplace_all f t (v ++ [y]) | Raise => (v, false) end
    end.

  (** Leads.cpp:11-19 *)
  Definition make_structure (c : sconfig) (fnd : F) (ls : list LS) : list LS * bool :=
    match ls with [] => emplace_all (lead_one c fnd) (s_leads c) [] | _ => (ls, true) end.

  (** Model.cpp:100-107 and 142-176 *)
  Definition q_system (st : state) : state * res Sys :=
    match st_sys st with
    | Some s => (st, Ret s)
    | None =>
      match found (structure_of (st_cfg st)) with
      | Raise => (st, Raise)
      | Ret fnd =>
        let lb := make_structure (structure_of (st_cfg st)) fnd (st_ls st) in
        let st1 := St (st_cfg st) None (st_ham st) (fst lb) (st_lh st) (st_over st) in
        if snd lb then
          match finish (structure_of (st_cfg st)) fnd with
          | Ret s => (St (st_cfg st) (Some s) (st_ham st) (fst lb) (st_lh st) (st_over st), Ret s)
          | Raise => (st1, Raise)
          end
        else (st1, Raise)
      end
    end.

  (** Registry.cpp:88-93; [im] tells whether a matrix has a non-zero imaginary part *)
  Variable im : mat R -> bool.
  (** Model.cpp:95-98 without the override *)
  Definition static_complex (c : config) : bool :=
    existsb (fun e => im (snd e)) (c_sites c) || existsb (fun e => im (snd e)) (c_hops c)
    || existsb hm_complex (c_onsite c) || existsb hm_complex (c_hopping c)
    || match c_sym c with Some _ => true | None => false end.

  (** Model.cpp:178-204 [make_hamiltonian]: result and new value of [complex_override] *)
  Definition make_ham (c : config) (over : bool) (s : Sys) : res H * bool :=
    if static_complex c || over then (complex_ham c s, over)
    else match real_ham c s with
         | HRet h => (Ret h, over)
         | HRaise => (Raise, over)
         | HComplex => (complex_ham c s, true)
         end.

  (** Model.cpp:109-117 *)
  Definition q_ham (st : state) : state * res H :=
    match q_system st with
    | (st1, Raise) => (st1, Raise)
    | (st1, Ret s) =>
      match st_ham st1 with
      | Some h => (st1, Ret h)
      | None =>
        let r := make_ham (st_cfg st1) (st_over st1) s in
        match fst r with
        | Ret h => (St (st_cfg st1) (st_sys st1) (Some h) (st_ls st1) (st_lh st1) (snd r), Ret h)
        | Raise => (St (st_cfg st1) (st_sys st1) None (st_ls st1) (st_lh st1) (snd r), Raise)
        end
      end
    end.

  (** Leads.hpp:43: [Lead{specs.at(i), structures.at(i), hamiltonians.at(i)}] for every lead; an
      entry is [None] when [at] raises. *)
  Definition lead_entries (st : state) : list (option ((Z * shape) * LS * LH)) :=
    map (fun i => match nth_error (c_leads (st_cfg st)) i, nth_error (st_ls st) i, nth_error (st_lh st) i with
                  | Some a, Some b, Some c => Some (a, b, c) | _, _, _ => None end)
        (seq 0 (length (c_leads (st_cfg st)))).

  (** Model.cpp:119-124, Leads.cpp:21-29 *)
  Definition q_leads (st : state) : state * res (list (option ((Z * shape) * LS * LH))) :=
    match q_ham st with
    | (st1, Raise) => (st1, Raise)
    | (st1, Ret _) =>
      match st_lh st1 with
      | [] =>
        let lb := emplace_all (lead_ham (st_cfg st1) (static_complex (st_cfg st1) || st_over st1)) (st_ls st1) [] in
        let st2 := St (st_cfg st1) (st_sys st1) (st_ham st1) (st_ls st1) (fst lb) (st_over st1) in
        (st2, if snd lb then Ret (lead_entries st2) else Raise)
      | _ => (st1, Ret (lead_entries st1))
      end
    end.

  Inductive query := QSystem | QHam | QLeads.
  Inductive obs := OSystem (r : res Sys) | OHam (r : res H) | OLeads (r : res (list (option ((Z * shape) * LS * LH)))).
  Definition ask (q : query) (st : state) : state * obs :=
    match q with
    | QSystem => let r := q_system st in (fst r, OSystem (snd r))
    | QHam => let r := q_ham st in (fst r, OHam (snd r))
    | QLeads => let r := q_leads st in (fst r, OLeads (snd r))
    end.

  Inductive op := Call (m : mcall) | Ask (q : query).
  Definition step (st : state) (o : op) : state :=
    match o with Call m => fst (do_call m st) | Ask q => fst (ask q st) end.
  Definition run (ops : list op) (st : state) : state := fold_left step ops st.

  (** Only the configuration calls, on a model that is never asked. *)
  Definition config_calls (ops : list op) : list op := filter (fun o => match o with Call _ => true | Ask _ => false end) ops.
End Model.
Arguments Shape {P Shp}. Arguments sh_body {P Shp}. Arguments sh_offset {P Shp}.
Arguments Plain {R Fn}. Arguments GenSites {R Fn}. Arguments GenHops {R Fn}.
Arguments HMod {Fn}. Arguments hm_fn {Fn}. Arguments hm_complex {Fn}. Arguments hm_double {Fn}.
Arguments Cfg {R P Shp Sy Fn}. Arguments c_ndim {R P Shp Sy Fn}. Arguments c_offset {R P Shp Sy Fn}. Arguments c_sites {R P Shp Sy Fn}.
Arguments c_hops {R P Shp Sy Fn}. Arguments c_prim {R P Shp Sy Fn}. Arguments c_shape {R P Shp Sy Fn}. Arguments c_sym {R P Shp Sy Fn}.
Arguments c_wave {R P Shp Sy Fn}. Arguments c_smods {R P Shp Sy Fn}. Arguments c_onsite {R P Shp Sy Fn}. Arguments c_hopping {R P Shp Sy Fn}.
Arguments c_leads {R P Shp Sy Fn}.
Arguments SCfg {R P Shp Sy Fn}. Arguments s_ndim {R P Shp Sy Fn}. Arguments s_offset {R P Shp Sy Fn}. Arguments s_sites {R P Shp Sy Fn}.
Arguments s_hops {R P Shp Sy Fn}. Arguments s_prim {R P Shp Sy Fn}. Arguments s_shape {R P Shp Sy Fn}. Arguments s_sym {R P Shp Sy Fn}.
Arguments s_smods {R P Shp Sy Fn}. Arguments s_leads {R P Shp Sy Fn}. Arguments structure_of {R P Shp Sy Fn}.
Arguments AddPrimitive {R P Shp Sy Fn}. Arguments AddShape {R P Shp Sy Fn}. Arguments AddSymmetry {R P Shp Sy Fn}. Arguments AttachLead {R P Shp Sy Fn}.
Arguments AddStructMod {R P Shp Sy Fn}. Arguments AddOnsite {R P Shp Sy Fn}. Arguments AddHoppingMod {R P Shp Sy Fn}.
Arguments AddSiteGen {R P Shp Sy Fn}. Arguments AddHopGen {R P Shp Sy Fn}. Arguments SetWave {R P Shp Sy Fn}.
Arguments ClearStructMods {R P Shp Sy Fn}. Arguments ClearHamMods {R P Shp Sy Fn}. Arguments ClearAllMods {R P Shp Sy Fn}.
Arguments configure {R P} padd peqb {Shp Sy Fn}.
Arguments St {R P Shp Sy Fn LS Sys H LH}. Arguments st_cfg {R P Shp Sy Fn LS Sys H LH}. Arguments st_sys {R P Shp Sy Fn LS Sys H LH}.
Arguments st_ham {R P Shp Sy Fn LS Sys H LH}. Arguments st_ls {R P Shp Sy Fn LS Sys H LH}. Arguments st_lh {R P Shp Sy Fn LS Sys H LH}.
Arguments st_over {R P Shp Sy Fn LS Sys H LH}. Arguments fresh {R P Shp Sy Fn LS Sys H LH}.
Arguments Call {R P Shp Sy Fn}. Arguments Ask {R P Shp Sy Fn}. Arguments config_calls {R P Shp Sy Fn}.
