(* Queries of the family registries.
   cppcore/src/system/Registry.cpp, cppcore/include/system/Registry.hpp *)
From Verif Require Import Base Scalar Lattice.

Section Registry.
  Variable R : scalar.
  Definition registry := list (name * mat R).

  (** Registry.cpp:54-61 [name(id)] and 63-70 [energy(id)]: [std::out_of_range] beyond the end *)
  Definition reg_name (reg : registry) (i : nat) : outcome name :=
    match nth_error reg i with Some e => Ok (fst e) | None => Throw end.
  Definition reg_energy (reg : registry) (i : nat) : outcome (mat R) :=
    match nth_error reg i with Some e => Ok (snd e) | None => Throw end.

  (** Registry.cpp:72-79 [id(name)]: [std::find], then the distance from the beginning *)
  Fixpoint reg_id_from (i : nat) (reg : registry) (n : name) : outcome nat :=
    match reg with
    | [] => Throw
    | e :: t => if name_eqb (fst e) n then Ok i else reg_id_from (S i) t n
    end.
  Definition reg_id (reg : registry) (n : name) : outcome nat := reg_id_from 0 reg n.

  (** Registry.cpp:45-52 [name_map]: an assignment per family, so a later entry replaces an
      earlier one of the same name.  The map is an association list with the newest first. *)
  Fixpoint name_map_from (i : nat) (reg : registry) (m : list (name * nat)) : list (name * nat) :=
    match reg with [] => m | e :: t => name_map_from (S i) t ((fst e, i) :: m) end.
  Definition name_map (reg : registry) : list (name * nat) := name_map_from 0 reg [].
  Definition map_find (m : list (name * nat)) (n : name) : option nat :=
    option_map snd (find (fun e => name_eqb (fst e) n) m).

  (** Registry.cpp:95-100: [energy.size() != 1] for any family *)
  Definition has_multiple_orbitals (reg : registry) : bool :=
    existsb (fun e => negb (m_rows (snd e) * m_cols (snd e) =? 1)) reg.
  (** Registry.cpp:81-86 (exact instead of up to 1e-12) *)
  Definition has_nonzero_energy (reg : registry) : bool :=
    existsb (fun e => existsb (fun i => existsb (fun j => negb (keqb (m_at (snd e) i j) k0)) (seq 0 (m_cols (snd e)))) (seq 0 (m_rows (snd e)))) reg.
End Registry.
Arguments reg_name {R}. Arguments reg_energy {R}. Arguments reg_id {R}. Arguments reg_id_from {R}.
Arguments name_map {R}. Arguments name_map_from {R}. Arguments has_multiple_orbitals {R}. Arguments has_nonzero_energy {R}.
