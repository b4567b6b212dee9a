(* Which scalar type the matrix of a model has, and what Eigen's isZero makes of small numbers.

   Mirrors cppcore/src/Model.cpp:91-98 (is_double, is_complex), 178-205 (make_hamiltonian),
   src/system/Registry.cpp:81-93 (has_nonzero_energy, any_complex_terms),
   src/hamiltonian/HamiltonianModifiers.cpp:5-24 (any_complex, any_double),
   cppmodule/src/modifiers.cpp:12-32 (ExtractModifierResult) and src/Lattice.cpp:23-28 (Lattice).

   Eigen's [isZero] is true of numbers up to 1e-12 (double) or 1e-5 (float); the test is kept as [small]
   for a number and [small_im] for its imaginary part.

   Simplifications: arithmetic is exact, so single and double precision are the same.  A modifier
   computes the same numbers on real and complex arrays; a result with an imaginary part is a complex
   array, for which the real builder throws ComplexOverride and the complex one starts.  Another exception
   of the real builder is not told from ComplexOverride here: the complex builder meets it again. *)
From Verif Require Import Base Rle Blocks Scalar Foundation Lattice Hamiltonian.

Section Types.
  Variable R : scalar.
  Variable V : Type.
  Variable re : R -> R.                  (* real part *)
  Variables small small_im : R -> bool.

  (** Registry.cpp:81-93 *)
  Definition nonzero_energy (reg : list (name * mat R)) : bool := existsb (fun e => negb (forallb small (mat_vals (snd e)))) reg.
  Definition any_complex_terms (reg : list (name * mat R)) : bool := existsb (fun e => negb (forallb small_im (mat_vals (snd e)))) reg.

  (** HamiltonianModifiers.hpp:106-156 with this test *)
  Definition onsite_terms (intrinsic : bool) (nt : ntype R) (sys : hsys R V) (mods : list (onsite_mod R V)) : outcome (list (Z * Z * R)) :=
    if negb intrinsic && (length mods =? 0) then Ok []
    else ofold (fun acc s =>
           obind (onsite_buffer nt sys mods intrinsic s) (fun b =>
           obind (emit (onsite_indices s) b) (fun r => Ok (acc ++ r))))
         (iter (hs_subs sys)) [].
  (** Hamiltonian.hpp:74-175 with it *)
  Definition build (cap : nat) (nt : ntype R) (sys : hsys R V) (om : list (onsite_mod R V)) (hm : list (hopping_mod R V))
      (unshift : V -> V -> V) (phase : V -> R) (simple : bool) : outcome (sparse R) :=
    obind (obind (onsite_terms (nonzero_energy (hs_site sys)) nt sys om) (fun os =>
           obind (apply_to_hoppings cap nt sys (fun p => p) hm (hs_hops sys)) (fun hs =>
           ofold (put simple (hamiltonian_size (hs_subs sys))) (os ++ flat_map (both (nt_conj nt)) hs) [])))
      (build_periodic cap nt sys hm unshift phase).

  (** A modifier on real arrays: modifiers.cpp:18-22 *)
  Definition is_real (x : R) : bool := keqb (re x) x.
  Definition real_result (r : outcome (list R)) : outcome (list R) := obind r (fun b => if forallb is_real b then Ok b else Throw).
  Definition real_onsite (m : onsite_mod R V) : onsite_mod R V := fun n ps s b => real_result (m n ps s b).
  Definition real_hopping (m : hopping_mod R V) : hopping_mod R V := fun r c p1 p2 f b => real_result (m r c p1 p2 f b).

  (** Model.cpp:95-98; a modifier comes with its flag *)
  Definition is_complex (sys : hsys R V) (om : list (bool * onsite_mod R V)) (hm : list (bool * hopping_mod R V)) (symmetry : bool) : bool :=
    any_complex_terms (hs_site sys) || any_complex_terms (hs_hop sys) || (existsb fst om || existsb fst hm) || symmetry.
  (** Model.cpp:178-205 *)
  Definition make_hamiltonian (cap : nat) (sys : hsys R V) (om : list (bool * onsite_mod R V)) (hm : list (bool * hopping_mod R V))
      (symmetry : bool) (unshift : V -> V -> V) (phase : V -> R) (simple : bool) : outcome (sparse R) :=
    let complex := build cap complex_type sys (map snd om) (map snd hm) unshift phase simple in
    if is_complex sys om hm symmetry then complex
    else match build cap (real_type re) sys (map real_onsite (map snd om)) (map real_hopping (map snd hm)) unshift phase simple with
         | Throw => complex
         | r => r
         end.
End Types.
Arguments nonzero_energy {R}. Arguments any_complex_terms {R}. Arguments onsite_terms {R V}. Arguments build {R V}. Arguments is_real {R}.
Arguments real_result {R}. Arguments real_onsite {R V}. Arguments real_hopping {R V}. Arguments is_complex {R V}. Arguments make_hamiltonian {R V}.

(** Lattice.cpp:23-28: the vectors of a lattice; [zero] is isZero on three floats *)
Definition lattice_vectors {A} (zero : A -> bool) (a1 a2 a3 : A) : list A :=
  a1 :: (if zero a2 then [] else [a2]) ++ (if zero a3 then [] else [a3]).
