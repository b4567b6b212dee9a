(* Model of structure modifiers, of the whole system build and of the queries on a built system.
   cppcore/{include,src}/system/StructureModifiers.{hpp,cpp}, cppcore/src/Model.cpp (make_system),
   cppcore/src/system/System.cpp (sublattice_range, find_nearest, hamiltonian_nnz), Leads.cpp:5-19 *)
From Verif Require Import Base Rle Blocks Foundation Scalar Lattice Symmetry Hamiltonian SystemBuild Leads.
From Coq Require Import QArith.
Local Open Scope nat_scope.

(** [f(array.segment(start, n))]: the callback changes the segment in place. *)
Definition on_segment {A} (f : list A -> outcome (list A)) (l : list A) (start n : nat) : outcome (list A) :=
  obind (segment l start n) (fun s =>
  obind (f s) (fun s' =>
  if length s' =? n then Ok (firstn start l ++ s' ++ skipn (start + n) l) else UB)).

(** Foundation.hpp:311-322: place of a sublattice in the unit cell; throws when there is none. *)
Fixpoint place_of_uid {P} (uc : list (usite P)) (uid : nat) : outcome nat :=
  match uc with
  | [] => Throw
  | u :: t => if u_uid u =? uid then Ok 0 else omap S (place_of_uid t uid)
  end.

Section Mods.
  Variable R : scalar.
  Variable P : Type.

  (** StructureModifiers.hpp:19-90.  The callbacks are arbitrary; [Throw] is an exception thrown by
      the user's function. *)
  Inductive smod :=
  | SiteState (apply : list bool -> list P -> name -> outcome (list bool)) (min_neighbors : Z)
  | PositionMod (apply : list P -> name -> outcome (list P))
  | SiteGen (n : name) (e : mat R) (make : sysdata P P -> outcome (list P))
  | HopGen (n : name) (e : mat R) (make : sysdata P P -> outcome (list nat * list nat)).

  (** StructureModifiers.hpp:99-105; both functions are the same table. *)
  Definition requires_system (m : smod) : bool := match m with SiteGen _ _ _ | HopGen _ _ _ => true | _ => false end.

  (** StructureModifiers.cpp:8-17 and 36-41; generators do nothing to a foundation
      (StructureModifiers.hpp:89).  State: positions and validity.  [subs] are the sublattices in
      the iteration order of the unordered map. *)
  Definition apply_foundation (size : idx3) (uc : list (usite P)) (subs : list (sublattice R P))
      (st : list P * list bool) (m : smod) : outcome (list P * list bool) :=
    let n := Z.to_nat (prod3 size) in
    match m with
    | SiteState f k =>
      obind (ofold (fun valid s => obind (place_of_uid uc (sb_uid s)) (fun a =>
               obind (segment (fst st) (a * n) n) (fun ps =>
               on_segment (fun v => f v ps (sb_name s)) valid (a * n) n))) subs (snd st)) (fun valid =>
      omap (pair (fst st)) (if (0 <? k)%Z then remove_dangling size uc k valid else Ok valid))
    | PositionMod f =>
      omap (fun pos => (pos, snd st))
        (ofold (fun pos s => obind (place_of_uid uc (sb_uid s)) (fun a =>
           on_segment (fun ps => f ps (sb_name s)) pos (a * n) n)) subs (fst st))
    | _ => Ok st
    end.

  (** Registry.cpp:54-61 [name], 72-79 [id] *)
  Definition reg_name (reg : list (name * mat R)) (id : nat) : outcome name := omap fst (reg_get reg id).
  Fixpoint reg_id (reg : list (name * mat R)) (n : name) : outcome nat :=
    match reg with
    | [] => Throw
    | x :: t => if name_eqb (fst x) n then Ok 0 else omap S (reg_id t n)
    end.

  Definition with_valid (s : sysdata P P) (v : list bool) : sysdata P P :=
    SysData (sd_pos s) (sd_subs s) (sd_hops s) (sd_bounds s) v.
  Definition with_pos (s : sysdata P P) (p : list P) : sysdata P P :=
    SysData p (sd_subs s) (sd_hops s) (sd_bounds s) (sd_valid s).

  (** StructureModifiers.cpp:19-34, 43-48, 50-67; [num_sites()] is the number of positions. *)
  Definition apply_system (reg hreg : list (name * mat R)) (s : sysdata P P) (m : smod) : outcome (sysdata P P) :=
    match m with
    | SiteState f k =>
      let v0 := match sd_valid s with [] => repeat true (length (sd_pos s)) | v => v end in
      obind (ofold (fun v b => obind (segment (sd_pos s) (it_sys b) (e_num (it_e b))) (fun ps =>
               obind (reg_name reg (e_id (it_e b))) (fun nm =>
               on_segment (fun x => f x ps nm) v (it_sys b) (e_num (it_e b))))) (Rle.iter (sd_subs s)) v0) (fun v =>
      if (0 <? k)%Z then Throw else Ok (with_valid s v))
    | PositionMod f =>
      omap (with_pos s)
        (ofold (fun p b => obind (reg_name reg (e_id (it_e b))) (fun nm =>
           on_segment (fun ps => f ps nm) p (it_sys b) (e_num (it_e b)))) (Rle.iter (sd_subs s)) (sd_pos s))
    | SiteGen n e make =>
      obind (remove_invalid s) (fun s =>
      obind (make s) (fun ps =>
      obind (reg_id reg n) (fun id =>
      Ok (SysData (sd_pos s ++ ps) (rle_add (sd_subs s) id (m_rows e) (length ps))
                  (hb_add_sites (sd_hops s) (length ps)) (sd_bounds s) (sd_valid s)))))
    | HopGen n e make =>
      obind (remove_invalid s) (fun s =>
      obind (make s) (fun rc =>
      obind (reg_id hreg n) (fun f =>
      obind (hb_append (sd_hops s) f (fst rc) (snd rc)) (fun h =>
      Ok (SysData (sd_pos s) (sd_subs s) h (sd_bounds s) (sd_valid s))))))
    end.

  (** Model.cpp:149-152 *)
  Fixpoint split_mods (ms : list smod) : list smod * list smod :=
    match ms with
    | [] => ([], [])
    | m :: t => if requires_system m then ([], ms) else let r := split_mods t in (m :: fst r, snd r)
    end.

  Variable dflt : P.
  Variable padd : P -> P -> P.

  (** Model.cpp:142-176 [make_system], from the foundation of the shape ([fpos], [inside]): the system
      and the structure of every lead with its lead vector.  [reg] and [hreg] are the registries of
      the model, which already hold the families of the generators; [nfam] is the number of hopping
      families of the lattice, used for the leads (Structure.cpp:7-8).  The foundation's hopping
      counts only reserve memory: [populate_system] here counts for all families of the model. *)
  Definition make_system (size lower : idx3) (uc : list (usite P)) (subs : list (sublattice R P)) (nfam : nat) (s : sym)
      (shift : idx3 -> P) (reg hreg : list (name * mat R)) (mods : list smod) (leads : list (lead P * P))
      (fpos : list P) (inside : list bool) : outcome (sysdata P P * list (lead_structure P)) :=
    obind (sym_apply size (length uc) s inside) (fun valid0 =>
    let sm := split_mods mods in
    obind (ofold (apply_foundation size uc subs) (fst sm) (fpos, valid0)) (fun f =>
    obind (create_attachment_areas size lower uc (fst f) (map fst leads) (snd f)) (fun valid =>
    obind (finalized_indices size uc nfam valid) (fun fi =>
    obind (osequence (fun l => make_structure size lower uc (fst f) padd dflt nfam (fst (fst fi)) (snd l) (fst l) valid)
             leads) (fun lts =>
    obind (populate_system dflt size uc (length hreg) (fst f) valid) (fun st =>
    obind (populate_boundaries size uc (length hreg) s (fst (fst fi)) (snd fi)) (fun bs =>
    obind (ofold (apply_system reg hreg) (snd sm)
             (SysData (fst (fst st)) (snd (fst st)) (snd st) (map (fun b => (b_hops b, shift (b_shift b))) bs) [])) (fun sys =>
    obind (remove_invalid sys) (fun sys =>
    if length (sd_pos sys) =? 0 then Throw else Ok (sys, lts)))))))))).

  (** What the Hamiltonian builder reads of a system. *)
  Definition hsys_of (reg hreg : list (name * mat R)) (s : sysdata P P) : hsys R P :=
    HSys (sd_subs s) (sd_pos s) reg hreg (sd_hops s) (sd_bounds s).

  (** System.cpp:50-66; an empty name selects all sites. *)
  Definition sublattice_range (reg : list (name * mat R)) (s : sysdata P P) (n : name) : outcome (nat * nat) :=
    if name_eqb n Blank then Ok (0, length (sd_pos s))
    else obind (reg_id reg n) (fun id =>
         match find (fun b => e_id (it_e b) =? id) (Rle.iter (sd_subs s)) with
         | Some b => Ok (it_sys b, sys_end b)
         | None => Throw
         end).

  (** System.cpp:68-82; [dist] is the distance to the target (no NaN). *)
  Definition find_nearest (dist : P -> Q) (reg : list (name * mat R)) (s : sysdata P P) (n : name) : outcome nat :=
    obind (sublattice_range reg s n) (fun r =>
    obind (aget (sd_pos s) (fst r)) (fun p0 =>
    omap fst (ofold (fun best i => obind (aget (sd_pos s) i) (fun p =>
                Ok (if negb (Qle_bool (snd best) (dist p)) then (i, dist p) else best)))
             (seq (fst r + 1) (snd r - (fst r + 1))) (fst r, dist p0)))).

  (** System.cpp:16-31 *)
  Definition hamiltonian_nnz (hreg : list (name * mat R)) (s : sysdata P P) : outcome nat :=
    let onsite := fold_left (fun n b => n + e_num b * e_norb b * e_norb b) (sd_subs s) 0 in
    omap (fun h => onsite + 2 * h)
      (ofold (fun n fb => obind (reg_get hreg (fst fb)) (fun e => Ok (n + length (snd fb) * (m_rows (snd e) * m_cols (snd e)))))
             (combine (seq 0 (length (hb_blocks (sd_hops s)))) (hb_blocks (sd_hops s))) 0).
End Mods.
Arguments SiteState {R P}. Arguments PositionMod {R P}. Arguments SiteGen {R P}. Arguments HopGen {R P}.
Arguments requires_system {R P}. Arguments apply_foundation {R P}. Arguments reg_name {R}. Arguments reg_id {R}.
Arguments with_valid {P}. Arguments with_pos {P}. Arguments apply_system {R P}. Arguments split_mods {R P}.
Arguments make_system {R P}. Arguments hsys_of {R P}. Arguments sublattice_range {R P}. Arguments find_nearest {R P}.
Arguments hamiltonian_nnz {R P}.
