(* The kernel polynomial core as an object that is asked several times: energy bounds and the
   optimised matrix are kept between queries.
   cppcore/src/kpm/Core.cpp, cppcore/include/kpm/Core.hpp:79-90, cppcore/src/kpm/Bounds.cpp:21-31,
   cppcore/include/kpm/Bounds.hpp:41-70, cppcore/src/kpm/OptimizedHamiltonian.cpp:42-52. *)
From Verif Require Import Base Scalar Kpm KpmCore.

Section State.
  Variable R : scalar.
  Local Notation csr := (list (list (nat * R))).
  (** Energies are compared only; [lanczos] is the estimate for a matrix (its random generator is
      seeded in the same way each time, numeric/random.hpp:46-50) or an exception;
      [scale] gives 1/a and b of an energy range (Bounds.hpp:17-24). *)
  Variable E : Type.
  Variable eqb : E -> E -> bool.
  Variable lanczos : csr -> outcome (E * E).
  Variable scale : E -> E -> R * R.
  Variable reorder : bool.                 (* config.algorithm.reorder() *)
  Variable range : E * E.                  (* config.min_energy, config.max_energy *)
  Variable zero : E.

  (** Bounds.hpp:58-70.  [bd_auto]: the Hamiltonian is set. *)
  Record bounds := Bounds { bd_auto : bool; bd_min : E; bd_max : E }.
  (** Core.hpp:82-89.  [co_idx]: [original_idx], [co_oh] is [None] for a matrix that was never
      filled. *)
  Record core := Core { co_h : csr; co_bounds : bounds; co_idx : indices; co_oh : option (optimized R) }.

  (** Core.cpp:8-14 *)
  Definition reset_bounds : bounds :=
    if eqb (fst range) (snd range) then Bounds true zero zero else Bounds false (fst range) (snd range).
  (** Core.cpp:17-23 and 26-30: constructor and [set_hamiltonian].  The check min <= max of the
      constructor is left out. *)
  Definition new_core (h : csr) : core := Core h reset_bounds (Indices [] []) None.

  (** Bounds.cpp:21-31 *)
  Definition compute_bounds (st : core) : outcome core :=
    let bd := co_bounds st in
    if negb (bd_auto bd) || negb (eqb (bd_min bd) (bd_max bd)) then Ok st
    else omap (fun r => Core (co_h st) (Bounds true (fst r) (snd r)) (co_idx st) (co_oh st)) (lanczos (co_h st)).

  (** OptimizedHamiltonian.cpp:42-52 *)
  Definition optimize_for (idx : indices) (s : R * R) (st : core) : outcome core :=
    if indices_eqb (co_idx st) idx then Ok st
    else omap (fun oh => Core (co_h st) (co_bounds st) idx (Some oh)) (optimize R (fst s) (snd s) (co_h st) reorder idx).

  (** Every calculation of Core.cpp:35-150 begins with [bounds.scaling_factors()] and
      [optimize_for]; the rest, [f], only reads.  With a matrix that was never filled
      [stats.reset] already reads outside of it (OptimizedHamiltonian.cpp:165-168). *)
  Definition query {A} (idx : indices) (f : optimized R -> R * R -> outcome A) (st : core) : core * outcome A :=
    match compute_bounds st with
    | Ok st1 =>
      let s := scale (bd_min (co_bounds st1)) (bd_max (co_bounds st1)) in
      match optimize_for idx s st1 with
      | Ok st2 => (st2, match co_oh st2 with Some oh => f oh s | None => UB end)
      | Throw => (st1, Throw)
      | UB => (st1, UB)
      end
    | Throw => (st, Throw)
    | UB => (st, UB)
    end.

  (** What happened to the object before: queries, of which only the indices matter, and new
      Hamiltonians. *)
  Inductive kop := KQuery (idx : indices) | KHam (h : csr).
  Definition kdo (st : core) (o : kop) : core :=
    match o with
    | KQuery idx => fst (query idx (fun _ _ => Ok tt) st)
    | KHam h => new_core h
    end.
End State.
Arguments KQuery {R}. Arguments KHam {R}.

(** The calculations as queries. *)
Section Queries.
  Variable R : scalar.
  Variable half : R.
  Variable kr_of : list (list (nat * R)) -> kernel R.
  Local Notation csr := (list (list (nat * R))).
  Definition ask_moments (g : nat -> nat -> R) (al : algorithm) (num : Z) (alpha beta : list R) (op : option csr)
      (oh : optimized R) (_ : R * R) : outcome (list R) :=
    match round_num_moments num with
    | None => UB
    | Some rounded =>
      obind (reorder_vec R (oh_reorder oh) alpha) (fun r0 =>
      let kr := kr_of (oh_matrix oh) in
      let n := Z.to_nat rounded in
      obind (match beta, op with
             | [], None => run_diag R half kr (oh_map oh) (no_size al) n r0
             | _, _ =>
               obind (reorder_vec R (oh_reorder oh) (match beta with [] => alpha | _ => beta end)) (fun beta' =>
               obind (reorder_op R (oh_reorder oh) op) (fun op' =>
               run_generic R half kr (oh_map oh) (no_size al) n beta' op' r0))
             end) (fun ms => head (damp R g ms) num))
    end.
  Definition ask_greens (size : nat) (al : algorithm) (num : nat) (oh : optimized R) (_ : R * R) : outcome (list (list R)) :=
    let kr := kr_of (oh_matrix oh) in
    obind (unit_vector R size (ix_src (oh_idx oh)) 0) (fun r0 =>
    if is_diagonal (oh_idx oh)
    then omap (fun ms => [ms]) (run_diag R half kr (oh_map oh) al num r0)
    else run_units R half kr (oh_map oh) al num (ix_dest (oh_idx oh)) r0).
  Definition ask_ldos (size : nat) (al : algorithm) (num k : nat) (oh : optimized R) (_ : R * R) : outcome (list R) :=
    obind (unit_vector R size (ix_src (oh_idx oh)) k) (fun r0 =>
    run_diag R half (kr_of (oh_matrix oh)) (oh_map oh) al num r0).
End Queries.
