(* The system of a model without structure modifiers, as consumed by the Hamiltonian builder.
   cppcore/src/Model.cpp:142-165. *)
From Verif Require Import Base Rle Blocks Foundation Scalar Lattice Symmetry Hamiltonian.

Section Build.
  Variable R : scalar.
  Variable P : Type.

  (** An entry of a registry array that was never assigned is an empty name and an empty matrix. *)
  Definition entry_of (o : option (name * mat R)) : name * mat R :=
    match o with Some x => x | None => (Blank, Mat 0 0 (fun _ _ => k0)) end.

  (** Model.cpp:142-165 [make_system]: foundation arrays [fpos], [valid] of the block [size];
      [shift] is the Cartesian translation of an index shift (Symmetry.cpp:72-76). *)
  Definition build_system (dflt : P) (size : idx3) (uc : list (usite P)) (s : sym) (shift : idx3 -> P)
      (reg hreg : list (option (name * mat R))) (fpos : list P) (valid : list bool) : outcome (hsys R P) :=
    obind (populate_system dflt size uc (length hreg) fpos valid) (fun st =>
    obind (boundaries_of size uc (length hreg) s valid) (fun bs =>
    Ok (HSys (snd (fst st)) (fst (fst st)) (map entry_of reg) (map entry_of hreg) (snd st)
             (map (fun b => (b_hops b, shift (b_shift b))) bs)))).
End Build.
Arguments entry_of {R}. Arguments build_system {R P}.

(** Registry.cpp:29-43 [register_family] of the site and the hopping registry. *)
Section Register.
  Variable R : scalar.
  Definition register_family (ok : mat R -> bool) (n : name) (e : mat R) (reg : list (name * mat R))
    : outcome (list (name * mat R)) :=
    if name_eqb n Blank then Throw
    else if negb (ok e) then Throw
    else if existsb (fun x => name_eqb (fst x) n) reg then Throw
    else Ok (reg ++ [(n, e)]).
End Register.
Arguments register_family {R}.
