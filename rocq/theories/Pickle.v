(* Model of the state that is written when a lattice or a system is pickled, and of the
   constructors that read it back.
   cppmodule/src/lattice.cpp:12-21, 28-36, 41-48, 77-91, cppmodule/src/system.cpp:9-15, 25-31,
   37-45, 60-69, 77-83, 95-123 *)
From Coq Require Import String.
From Verif Require Import Base Rle Blocks Foundation Scalar Lattice Registry.

Section Pickle.
  Variable R : scalar.
  Variable F : Type.                 (* float *)
  Definition cart := (F * F * F)%type.
  Variable zero : cart.              (* the offset of a new lattice, Lattice.hpp:149 *)
  Variable offset_ok : list cart -> cart -> bool.   (* the check of Lattice.cpp:128 for given vectors *)

  (** The Python objects that appear in the states.  Simplification: an Eigen vector or matrix
      and the NumPy array made from it are the same value; an array is told apart by its element
      type and number of dimensions. *)
  Inductive pv : Type :=
  | VInt (z : Z)                     (* int *)
  | VPos (p : cart)                  (* float array of length 3 *)
  | VIdx (i : idx3)                  (* int array of length 3 *)
  | VMat (m : mat R)                 (* 2D complex array *)
  | VInts (l : list nat)             (* 1D int array *)
  | VFloats (l : list F)             (* 1D float array *)
  | VStr (n : name)
  | VSeq (l : list pv)               (* list or tuple *)
  | VRec (d : list (string * pv))    (* dict with the keys of a state *)
  | VMap (d : list (name * pv))      (* dict from an unordered_map<string, ...> *)
  | VObj (cls : string) (state : pv). (* instance of a wrapped class, by its own state *)

  (** d["key"]: a missing key throws *)
  Definition item (d : pv) (k : string) : outcome pv :=
    match d with
    | VRec l => match find (fun p => String.eqb (fst p) k) l with Some p => Ok (snd p) | None => Throw end
    | _ => Throw
    end.
  Definition contains (d : pv) (k : string) : bool :=
    match d with VRec l => existsb (fun p => String.eqb (fst p) k) l | _ => false end.
  (** t[i] of a tuple *)
  Definition elem (d : pv) (i : nat) : outcome pv :=
    match d with VSeq l => match nth_error l i with Some v => Ok v | None => Throw end | _ => Throw end.

  (** x.cast<T>(): throws when the type does not fit *)
  Definition as_nat (v : pv) : outcome nat :=
    match v with VInt z => if (z <? 0)%Z then Throw else Ok (Z.to_nat z) | _ => Throw end.
  Definition as_int (v : pv) : outcome Z := match v with VInt z => Ok z | _ => Throw end.
  Definition as_pos (v : pv) : outcome cart := match v with VPos p => Ok p | _ => Throw end.
  Definition as_idx (v : pv) : outcome idx3 := match v with VIdx p => Ok p | _ => Throw end.
  Definition as_mat (v : pv) : outcome (mat R) := match v with VMat p => Ok p | _ => Throw end.
  Definition as_ints (v : pv) : outcome (list nat) := match v with VInts p => Ok p | _ => Throw end.
  Definition as_floats (v : pv) : outcome (list F) := match v with VFloats p => Ok p | _ => Throw end.
  Definition as_str (v : pv) : outcome name := match v with VStr p => Ok p | _ => Throw end.
  Definition as_seq {A} (f : pv -> outcome A) (v : pv) : outcome (list A) :=
    match v with VSeq l => osequence f l | _ => Throw end.
  Definition as_map {A} (f : pv -> outcome A) (v : pv) : outcome (list (name * A)) :=
    match v with VMap l => osequence (fun p => omap (pair (fst p)) (f (snd p))) l | _ => Throw end.
  Definition as_obj {A} (cls : string) (f : pv -> outcome A) (v : pv) : outcome A :=
    match v with VObj c s => if String.eqb c cls then f s else Throw | _ => Throw end.

  Definition vnat (n : nat) : pv := VInt (Z.of_nat n).
  Definition field {A} (d : pv) (k : string) (f : pv -> outcome A) : outcome A := obind (item d k) f.

  Local Open Scope string_scope.

  (** lattice.cpp:12-21.  The name of a sublattice is the key in the map. *)
  Definition sub_get (s : sublattice R cart) : pv :=
    VObj "Sublattice" (VRec [("position", VPos (sb_pos s)); ("energy", VMat (sb_energy s));
                             ("unique_id", vnat (sb_uid s)); ("alias_id", vnat (sb_alias s))]).
  Definition sub_set (v : pv) : outcome (name -> sublattice R cart) :=
    as_obj "Sublattice" (fun d =>
      obind (field d "position" as_pos) (fun p => obind (field d "energy" as_mat) (fun e =>
      obind (field d "unique_id" as_nat) (fun u => obind (field d "alias_id" as_nat) (fun a =>
      Ok (fun n => Sub n p e u a)))))) v.

  (** lattice.cpp:28-36 *)
  Definition term_get (t : term) : pv :=
    VObj "HoppingTerm" (VRec [("relative_index", VIdx (t_rel t)); ("from", vnat (t_from t)); ("to", vnat (t_to t))]).
  Definition term_set (v : pv) : outcome term :=
    as_obj "HoppingTerm" (fun d =>
      obind (field d "relative_index" as_idx) (fun r => obind (field d "from" as_nat) (fun a =>
      obind (field d "to" as_nat) (fun b => Ok (Term r a b))))) v.

  (** lattice.cpp:41-48 *)
  Definition fam_get (f : family R) : pv :=
    VObj "HoppingFamily" (VRec [("energy", VMat (fm_energy f)); ("family_id", vnat (fm_id f));
                                ("terms", VSeq (map term_get (fm_terms f)))]).
  Definition fam_set (v : pv) : outcome (name -> family R) :=
    as_obj "HoppingFamily" (fun d =>
      obind (field d "energy" as_mat) (fun e => obind (field d "family_id" as_nat) (fun i =>
      obind (field d "terms" (as_seq term_set)) (fun ts => Ok (fun n => Fam n e i ts))))) v.

  (** The lattice with its vectors, which [lattice] of Lattice.v leaves out. *)
  Record vlattice := VLat { vl_vectors : list cart; vl_lat : lattice R cart }.
  Definition get_offset (l : vlattice) : cart :=
    match l_offset (vl_lat l) with Some p => p | None => zero end.

  (** lattice.cpp:77-83.  [osub], [ofam]: the order in which the maps are walked. *)
  Definition lattice_get (osub : list (sublattice R cart)) (ofam : list (family R)) (l : vlattice) : pv :=
    VObj "Lattice" (VRec [("vectors", VSeq (map VPos (vl_vectors l)));
                          ("sublattices", VMap (map (fun s => (sb_name s, sub_get s)) osub));
                          ("hoppings", VMap (map (fun f => (fm_name f, fam_get f)) ofam));
                          ("offset", VPos (get_offset l));
                          ("min_neighbors", VInt (l_min (vl_lat l)))]).
  (** lattice.cpp:83-91; set_offset throws for an offset that is too long *)
  Definition named {A} (l : list (name * (name -> A))) : list A := map (fun p => snd p (fst p)) l.
  Definition lattice_set (v : pv) : outcome vlattice :=
    as_obj "Lattice" (fun d =>
      obind (field d "vectors" (as_seq as_pos)) (fun vs =>
      obind (field d "sublattices" (as_map sub_set)) (fun ss =>
      obind (field d "hoppings" (as_map fam_set)) (fun hs =>
      obind (field d "offset" as_pos) (fun o =>
      if negb (offset_ok vs o) then Throw else
      obind (field d "min_neighbors" as_int) (fun m =>
      Ok (VLat vs (Lat (named ss) (named hs) (Some o) m)))))))) v.

  (** system.cpp:9-15: the two arrays are read without comparing their lengths (the assert of
      Registry.cpp:26 is off, and is about the moved-from arguments) *)
  Record reg_arrays := RegArrays { ra_energies : list (mat R); ra_names : list name }.
  Definition reg_get (cls : string) (r : reg_arrays) : pv :=
    VObj cls (VRec [("energies", VSeq (map VMat (ra_energies r))); ("names", VSeq (map VStr (ra_names r)))]).
  Definition reg_set (cls : string) (v : pv) : outcome reg_arrays :=
    as_obj cls (fun d =>
      obind (field d "energies" (as_seq as_mat)) (fun e =>
      obind (field d "names" (as_seq as_str)) (fun n => Ok (RegArrays e n)))) v.

  (** system.cpp:25-31: a tuple *)
  Record cart_array := CartArray { ca_x : list F; ca_y : list F; ca_z : list F }.
  Definition pos_get (a : cart_array) : pv :=
    VObj "CartesianArray" (VSeq [VFloats (ca_x a); VFloats (ca_y a); VFloats (ca_z a)]).
  Definition pos_set (v : pv) : outcome cart_array :=
    as_obj "CartesianArray" (fun t =>
      obind (obind (elem t 0) as_floats) (fun x => obind (obind (elem t 1) as_floats) (fun y =>
      obind (obind (elem t 2) as_floats) (fun z => Ok (CartArray x y z))))) v.

  (** system.cpp:37-45 *)
  Definition rle_get (c : rle) : pv :=
    VObj "CompressedSublattices" (VRec [("alias_ids", VInts (alias_ids c)); ("site_counts", VInts (site_counts c));
                                        ("orbital_counts", VInts (orbital_counts c))]).
  Definition rle_set (v : pv) : outcome rle :=
    as_obj "CompressedSublattices" (fun d =>
      obind (field d "alias_ids" as_ints) (fun a => obind (field d "site_counts" as_ints) (fun s =>
      obind (field d "orbital_counts" as_ints) (fun o => rle_of_arrays a s o)))) v.

  (** system.cpp:60-69.  The name map of the blocks is walked in the order [m]. *)
  Record nblocks := NBlocks { nb_blocks : hblocks; nb_names : list (name * nat) }.
  Definition as_pair {A} (f : pv -> outcome A) (v : pv) : outcome (A * A) :=
    obind (obind (elem v 0) f) (fun a => obind (obind (elem v 1) f) (fun b => Ok (a, b))).
  Definition blocks_get (h : nblocks) : pv :=
    VObj "HoppingBlocks" (VRec [("num_sites", vnat (hb_n (nb_blocks h)));
                                ("data", VSeq (map (fun p => VSeq [VInts (fst p); VInts (snd p)]) (hb_serialize (nb_blocks h))));
                                ("name_map", VMap (map (fun p => (fst p, vnat (snd p))) (nb_names h)))]).
  Definition blocks_set (v : pv) : outcome nblocks :=
    as_obj "HoppingBlocks" (fun d =>
      obind (field d "num_sites" as_nat) (fun n =>
      obind (field d "data" (as_seq (as_pair as_ints))) (fun l =>
      obind (field d "name_map" (as_map as_nat)) (fun m =>
      omap (fun h => NBlocks h m) (hb_deserialize n l))))) v.

  (** system.cpp:77-83 *)
  Record sboundary := SBoundary { bd_blocks : nblocks; bd_shift : cart }.
  Definition boundary_get (b : sboundary) : pv :=
    VObj "Boundary" (VSeq [blocks_get (bd_blocks b); VPos (bd_shift b)]).
  Definition boundary_set (v : pv) : outcome sboundary :=
    as_obj "Boundary" (fun t =>
      obind (obind (elem t 0) blocks_set) (fun h => obind (obind (elem t 1) as_pos) (fun s =>
      Ok (SBoundary h s)))) v.

  (** System.hpp:24-34 without [is_valid], which is not saved *)
  Record psystem := PSystem { py_sites : reg_arrays; py_hops : reg_arrays; py_pos : cart_array;
                              py_subs : rle; py_blocks : nblocks; py_bounds : list sboundary }.
  (** system.cpp:95-101 *)
  Definition system_get (s : psystem) : pv :=
    VObj "System" (VRec [("site_registry", reg_get "SiteRegistry" (py_sites s));
                         ("hopping_registry", reg_get "HoppingRegistry" (py_hops s));
                         ("positions", pos_get (py_pos s));
                         ("compressed_sublattices", rle_get (py_subs s));
                         ("hopping_blocks", blocks_get (py_blocks s));
                         ("boundaries", VSeq (map boundary_get (py_bounds s)))]).

  (** The two registries of a lattice (Lattice.cpp:247-276) as arrays; an entry that was never
      assigned is an empty name and an empty matrix. *)
  Definition arrays_of (l : list (option (name * mat R))) : reg_arrays :=
    RegArrays (map (fun o => match o with Some p => snd p | None => Mat 0 0 (fun _ _ => k0) end) l)
              (map (fun o => match o with Some p => fst p | None => Blank end) l).
  (** system.cpp:102-118: a state of an older version holds the lattice instead of the registries *)
  Definition system_set (v : pv) : outcome psystem :=
    as_obj "System" (fun d =>
      obind (if contains d "lattice"
             then obind (field d "lattice" lattice_set) (fun l =>
                  obind (site_registry (l_subs (vl_lat l))) (fun s =>
                  obind (hopping_registry (l_fams (vl_lat l))) (fun h => Ok (arrays_of s, arrays_of h))))
             else obind (field d "site_registry" (reg_set "SiteRegistry")) (fun s =>
                  obind (field d "hopping_registry" (reg_set "HoppingRegistry")) (fun h => Ok (s, h))))
            (fun rr =>
      obind (field d "positions" pos_set) (fun p =>
      obind (field d "compressed_sublattices" rle_set) (fun c =>
      obind (field d "hopping_blocks" blocks_set) (fun h =>
      obind (field d "boundaries" (as_seq boundary_set)) (fun b =>
      Ok (PSystem (fst rr) (snd rr) p c h b))))))) v.
End Pickle.
