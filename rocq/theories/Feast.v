(* The FEAST eigensolver strategy: sizes of the buffers handed to MKL and the retry loops.
   cppcore/src/solver/FEAST.cpp, cppcore/include/solver/FEAST.hpp.
   Values of eigenvalues and vectors are not modelled, only the extents of their arrays. *)
From Verif Require Import Base.
Local Open Scope Z_scope.

(** What one call of [feast_hcsrev] reports (FEAST.cpp:222-239): refinement loops, subspace size,
    number of eigenvalues, return code. *)
Record report := Report { r_loops : Z; r_suggested : Z; r_final : Z; r_code : Z }.

(** FEAST.hpp:9-30: the fields the control flow depends on *)
Record fconfig := FConfig { f_guess : Z; f_recycle : bool; f_max_loops : Z }.

(** FEAST.hpp:41-51, 83-88.  [f_values], [f_residual]: sizes of [_eigenvalues] and [residual];
    [f_rows], [f_cols]: extents of [_eigenvectors]; [f_info] is empty before the first call;
    [f_warn_loops]: [recycle_warning_loops]. *)
Record fstate := FState {
  f_cfg : fconfig; f_info : report; f_values : Z; f_residual : Z; f_rows : Z; f_cols : Z;
  f_recycle_warning : bool; f_warn_loops : Z; f_size_warning : bool; f_calls : nat
}.

Inductive fres :=
| FDone (st : fstate) | FThrow
| FOverflow        (* MKL gets an array that is too small for the subspace *)
| FEmptyMax        (* [maxCoeff] of an empty array *)
| FFuel.

Section Solve.
  (** Environment: the [k]-th call, given the matrix size, the subspace size and whether it starts
      from the old subspace. *)
  Variable mkl : nat -> Z -> Z -> bool -> report.

  Definition with_info st i := FState (f_cfg st) i (f_values st) (f_residual st) (f_rows st) (f_cols st) (f_recycle_warning st) (f_warn_loops st) (f_size_warning st) (f_calls st).
  Definition with_guess st g := FState (FConfig g (f_recycle (f_cfg st)) (f_max_loops (f_cfg st))) (f_info st) (f_values st) (f_residual st) (f_rows st) (f_cols st) (f_recycle_warning st) (f_warn_loops st) (f_size_warning st) (f_calls st).
  Definition with_flags st rw wl sw := FState (f_cfg st) (f_info st) (f_values st) (f_residual st) (f_rows st) (f_cols st) rw wl sw (f_calls st).

  (** FEAST.cpp:112-118 *)
  Definition force_clear (st : fstate) : fstate :=
    FState (f_cfg st) (f_info st) 0 0 0 0 (f_recycle_warning st) (f_warn_loops st) (f_size_warning st) (f_calls st).

  (** FEAST.cpp:180-204 [call_feast], then 206-240; [n] is [config.system_size]. *)
  Definition call_feast (n : Z) (st : fstate) : fres :=
    let can_recycle := f_recycle (f_cfg st) && negb (f_values st =? 0) in
    let st := if f_values st =? 0 then
                let g := f_guess (f_cfg st) in
                let g' := if (n <? g) || (g <? 0) then n else g in
                let st := with_guess st g' in
                FState (f_cfg st) (Report (r_loops (f_info st)) g' (r_final (f_info st)) (r_code (f_info st))) g' (f_residual st) (f_rows st) (f_cols st)
                       (f_recycle_warning st) (f_warn_loops st) (f_size_warning st) (f_calls st)
              else st in
    let st := if f_residual st =? 0 then
                FState (f_cfg st) (f_info st) (f_values st) (f_guess (f_cfg st)) (f_rows st) (f_cols st) (f_recycle_warning st) (f_warn_loops st) (f_size_warning st) (f_calls st)
              else st in
    let st := if f_rows st * f_cols st =? 0 then
                FState (f_cfg st) (f_info st) (f_values st) (f_residual st) n (f_guess (f_cfg st)) (f_recycle_warning st) (f_warn_loops st) (f_size_warning st) (f_calls st)
              else st in
    let m0 := r_suggested (f_info st) in
    if (f_values st <? m0) || (f_residual st <? m0) || (f_rows st * f_cols st <? n * m0) then FOverflow
    else FDone (FState (f_cfg st) (mkl (f_calls st) n m0 can_recycle) (f_values st) (f_residual st) (f_rows st) (f_cols st)
                       (f_recycle_warning st) (f_warn_loops st) (f_size_warning st) (S (f_calls st))).

  (** FEAST.cpp:36, 50: [config.initial_size_guess *= 1.7], an [int]: the product is truncated *)
  Definition enlarge (g : Z) : Z := Z.quot (17 * g) 10.

  (** FEAST.cpp:22-41 *)
  Fixpoint recycle_loop (fuel : nat) (n : Z) (st : fstate) : fres :=
    if (f_max_loops (f_cfg st) <=? r_loops (f_info st)) || (r_code (f_info st) =? 3) then
      match fuel with
      | O => FFuel
      | S fuel =>
        let wl := f_warn_loops st + r_loops (f_info st) in
        let st := with_flags st true wl (f_size_warning st) in
        if 2 * f_max_loops (f_cfg st) <? wl then FThrow
        else
          let st := if r_suggested (f_info st) =? f_guess (f_cfg st) then with_guess st (enlarge (f_guess (f_cfg st))) else st in
          match call_feast n (force_clear st) with
          | FDone st => recycle_loop fuel n st
          | r => r
          end
      end
    else FDone st.

  (** FEAST.cpp:45-57 *)
  Fixpoint resize_loop (fuel : nat) (n : Z) (st : fstate) : fres :=
    if r_code (f_info st) =? 3 then
      match fuel with
      | O => FFuel
      | S fuel =>
        match call_feast n (force_clear (with_guess st (enlarge (f_guess (f_cfg st))))) with
        | FDone st =>
            if negb (r_code (f_info st) =? 3) && negb (r_code (f_info st) =? 0) then FThrow
            else resize_loop fuel n st
        | r => r
        end
      end
    else FDone st.

  Definition fbind (r : fres) (f : fstate -> fres) : fres := match r with FDone st => f st | _ => r end.

  (** FEAST.cpp:10-68 [solve]; [n] is the number of rows of the Hamiltonian. *)
  Definition solve (fuel : nat) (n : Z) (st : fstate) : fres :=
    fbind (call_feast n (with_flags st false 0 false)) (fun st =>
    fbind (if f_recycle (f_cfg st) then recycle_loop fuel n st else FDone st) (fun st =>
    fbind (if r_code (f_info st) =? 0 then FDone st
           else if r_code (f_info st) =? 3 then resize_loop fuel n (with_flags st (f_recycle_warning st) (f_warn_loops st) true)
           else if r_code (f_info st) =? 1 then FDone st
           else FThrow) (fun st =>
    if r_final (f_info st) =? 0 then FEmptyMax       (* 68: residual.head(final_size).maxCoeff() *)
    else FDone (if f_recycle_warning st
                then with_info st (Report (r_loops (f_info st) + f_warn_loops st) (r_suggested (f_info st)) (r_final (f_info st)) (r_code (f_info st)))
                else st)))).

  (** FEAST.cpp:99-110 [change_hamiltonian] for a Hamiltonian of the same scalar type *)
  Definition change_hamiltonian (st : fstate) : fstate := if f_recycle (f_cfg st) then st else force_clear st.

  (** A new solver: FEAST.hpp:55-56 *)
  Definition new_feast (c : fconfig) : fstate := FState c (Report 0 0 0 0) 0 0 0 0 false 0 false 0.
End Solve.
