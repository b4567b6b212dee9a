(* Model of KPM.calc_spatial_ldos: KPM.cpp:67-94 with System::sublattice_range (System.cpp:50-66),
   and pybinding/chebyshev.py:22-62, 203-227. *)
From Coq Require Import QArith Qabs String.
From Verif Require Import Base Blocks Rle AliasNames StructureSlice.
Local Open Scope nat_scope.
Local Notation len := Datatypes.length.

(** What is read of a model: the Python structure of its system (system.py:49-56), the compressed
    sublattices, the names of the site registry, and [Model::is_multiorbital]. *)
Record lsystem := LSystem { y_structure : structure; y_subs : rle; y_names : list string; y_multi : bool }.

(** Registry.cpp:45-51 [name_map] *)
Definition name_map (names : list string) : mapping := combine names (seq 0 (len names)).

(** Registry.cpp:72-78 [id] *)
Fixpoint registry_id (i : nat) (names : list string) (n : string) : outcome nat :=
  match names with [] => Throw | x :: t => if (x =? n)%string then Ok i else registry_id (S i) t n end.

Definition num_sites (y : lsystem) : nat := len (s_x (t_sites (y_structure y))).

(** System.cpp:50-66 *)
Definition family_range (y : lsystem) (n : string) : outcome (nat * nat) :=
  if (n =? "")%string then Ok (0, num_sites y)
  else obind (registry_id 0 (y_names y) n) (fun id =>
       match find (fun b => e_id (it_e b) =? id) (Rle.iter (y_subs y)) with
       | Some b => Ok (it_sys b, sys_end b)
       | None => Throw
       end).

(** KPM.cpp:76-88; [shape] is the answer of [shape.contains] for every position *)
Definition chosen (y : lsystem) (shape : list bool) (n : string) : outcome (list nat) :=
  obind (family_range y n) (fun r =>
  ofold (fun acc i => obind (aget shape i) (fun b => Ok (if b : bool then acc ++ [i] else acc))) (seq (fst r) (snd r - fst r)) []).

Section Ldos.
  Context {V : Type}.
  (** The LDOS of a Hamiltonian index at every energy: a column of [Core::ldos] (C21, C62) *)
  Variable ldos_of : nat -> list V.

  (** Core.cpp:58-72.  [prev] are the indices that the matrix is optimized for, none at first.  If they
      differ from the new ones, the first new index is read (OptimizedHamiltonian.cpp:42-52, 90-95; the
      matrix is reordered, which is the default). *)
  Definition core_ldos (prev idx : list nat) : outcome (list (list V)) :=
    if list_eq_dec Nat.eq_dec prev idx then Ok (map ldos_of idx)
    else obind (aget idx 0) (fun _ => Ok (map ldos_of idx)).

  (** KPM.cpp:67-94 *)
  Definition cpp_spatial (prev : list nat) (y : lsystem) (shape : list bool) (n : string) : outcome (list (list V)) :=
    if y_multi y then Throw else obind (chosen y shape n) (core_ldos prev).

  (** chebyshev.py:22-31: [l_data] holds the columns *)
  Record spatial := Spatial { l_data : list (list V); l_energy : list Q; l_structure : structure }.

  (** chebyshev.py:203-227 *)
  Definition calc_spatial_ldos (drop : bool) (prev : list nat) (y : lsystem) (inside : Q * Q * Q -> bool) (energy : list Q) (n : string)
    : outcome spatial :=
    let shape := map inside (site_positions (t_sites (y_structure y))) in
    obind (cpp_spatial prev y shape n) (fun data =>
    obind (structure_get drop (y_structure y) (Mask shape)) (fun m =>
    omap (Spatial data energy)
      (if (n =? "")%string then Ok m
       else structure_get drop m (Mask (array_eq (s_names (t_sites m)) (site_ids (t_sites m)) n))))).

  (** chebyshev.py:33-46 [structure_map]; the map raises if the number of values is not the number of
      sites (results.py:227-228) *)
  Definition nearest_energy (energies : list Q) (e : Q) : outcome nat :=
    argmin (map (fun x => Some (Qabs (x - e))) energies).
  Definition structure_map (l : spatial) (e : Q) : outcome (list V * structure) :=
    obind (nearest_energy (l_energy l) e) (fun j =>
    obind (osequence (fun c => aget c j) (l_data l)) (fun row =>
    if len (s_x (t_sites (l_structure l))) =? len row then Ok (row, l_structure l) else Throw)).

  (** chebyshev.py:48-62 [ldos] *)
  Definition spatial_ldos (l : spatial) (position : list Q) (f : StructureSlice.family) : outcome (list V) :=
    obind (structure_nearest (t_sites (l_structure l)) position f) (fun k => aget (l_data l) k).
End Ldos.
