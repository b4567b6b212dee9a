(* The random start vectors of the stochastic density of states and conductivity.
   cppcore/src/kpm/Starter.cpp:48-83, cppcore/include/numeric/random.hpp, cppcore/src/kpm/Core.cpp:74-90, 119-150.
   [next]: the numbers a freshly made [std::mt19937] gives through [uniform_real_distribution],
   between zero and one (no rounding). *)
From Verif Require Import Base Scalar Kpm KpmCore KpmEll KpmFinal KpmBatch RSum Cplx Spectral.
From Coq Require Import Reals.
Local Open Scope R_scope.
Local Notation csr := (list (list (nat * CX))).

(** One element for a real matrix (Starter.cpp:61-64) and for a complex one (Starter.cpp:74-76). *)
Definition random_entry (is_real : bool) (x : R) : CX :=
  if is_real then (if Rlt_dec x (/ 2) then re (-1) else re 1) else mk (cos (2 * PI * x)) (sin (2 * PI * x)).
(** One call of the starter with the generator at position [pos]; it moves on by [N].  random.hpp:24-44 *)
Definition random_vector (is_real : bool) (next : nat -> R) (N pos : nat) : list CX :=
  map (fun i => random_entry is_real (next (pos + i)%nat)) (seq 0 N).

Section Stochastic.
  Variable f : format.
  Variable al : algorithm.
  Variables lo hi : R.
  Let s := make_scale lo hi.
  Variable h : csr.
  Let N := List.length h.
  Variable is_real : bool.
  Variable next : nat -> R.

  (** Moments of [Core::dos] with [v] random vectors: any order of the threads.  Core.cpp:74-90.
      Vector number [k] is the one the starter makes after [k] others. *)
  Definition dos_moments (num bs v threads : nat) (ms : list CX) : Prop :=
    exists oh d st,
      optimize CX (re (/ s_a s)) (re (s_b s)) h (al_reorder al) (Indices [0%nat] [0%nat]) = Ok oh /\
      let mom k := match dos_column CX cx_half (format_kernel CX cx_half f) al num oh (random_vector is_real next N (k * N)) with Ok l => l | _ => [] end in
      reach CX bs mom (accumulator CX) (accumulate CX num v (re (/ INR v))) (start bs v (accumulator CX) threads (0%nat, d)) st /\
      finished (accumulator CX) st /\ snd (st_coll st) = DVec ms.

  (** Moments of [Core::conductivity].  Core.cpp:131-147: both starters make their own generator
      with the default seed; [pl] and [pr] are their positions. *)
  Definition conductivity_pair (num : nat) (oh : optimized CX) (left right : csr) (rl rr : list CX) : outcome (list (list CX)) :=
    let kr := format_kernel CX cx_half f (oh_matrix oh) in
    obind (reorder_vec CX (oh_reorder oh) (csr_mul CX left rl)) (fun rl' =>
    obind (run_dense CX cx_half kr (oh_map oh) (no_size al) num None rl') (fun ml =>
    obind (reorder_vec CX (oh_reorder oh) rr) (fun rr' =>
    obind (reorder_csr CX (oh_reorder oh) right) (fun right' =>
    obind (run_dense CX cx_half kr (oh_map oh) (no_size al) num (Some right') rr') (fun mr =>
    Ok (mul_adjoint CX ml mr)))))).
  Definition madd (a c : list (list CX)) : list (list CX) := map (fun p => map (fun q => kadd (fst q) (snd q)) (combine (fst p) (snd p))) (combine a c).
  Definition conductivity_moments (num v : nat) (left right : csr) : outcome (list (list CX)) :=
    obind (optimize CX (re (/ s_a s)) (re (s_b s)) h (al_reorder al) (Indices [0%nat] [0%nat])) (fun oh =>
    omap (fun acc => map (map (fun x => kmul (re (/ INR v)) x)) (snd acc))
      (ofold (fun acc _ =>
         let '(pl, pr, total) := acc in
         obind (conductivity_pair num oh left right (random_vector is_real next N pl) (random_vector is_real next N pr)) (fun t =>
         Ok ((pl + N)%nat, (pr + N)%nat, madd total t)))
       (seq 0 v) (0%nat, 0%nat, repeat (repeat (@k0 CX) num) num))).
End Stochastic.
