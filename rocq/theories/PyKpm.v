(* Model of the KPM implementation in Python: pybinding/chebyshev.py:448-575, class [_PythonImpl].
   Exact arithmetic.  [dot] of a sparse matrix: the sum over the stored entries of each row. *)
From Verif Require Import Base Scalar Blocks Kpm KpmCore KpmEll KpmFinal RSum Cplx Spectral.
From Coq Require Import Reals.

Section PyKpm.
  Variable R : scalar.
  Variable half inv_a b : R.
  Local Open Scope k_scope.
  Local Notation csr := (list (list (nat * R))).

  (** chebyshev.py:493-496 [_rescale_hamiltonian].  scipy's difference of two compressed matrices does not
      store zeros. *)
  Definition py_rescale (h : csr) : csr :=
    map (fun p => map (fun e => (fst e, snd e * inverted_a R inv_a)) (filter (fun e => negb (keqb (snd e) k0)) (shifted_row R b (fst p) (snd p))))
        (combine (seq 0 (length h)) h).

  Definition csr_dot (m : csr) (x : list R) : outcome (list R) := osequence (fun row => row_mul R row x) m.

  (** chebyshev.py:498-518 [_compute_diagonal_moments].  One pass of the loop: *)
  Definition py_step (h2 : csr) (s : list R * list R * list R) (n : nat) : outcome (list R * list R * list R) :=
    match s with (r0, r1, ms) =>
      obind (csr_dot h2 r1) (fun t =>
      let r0' := map (fun p => fst p - snd p) (combine t r0) in
      (* r0, r1 = r1, r0 *)
      let m2 := (k1 + k1) * (dot R r1 r1 - nth 0 ms k0) in
      let m3 := (k1 + k1) * dot R r0' r1 - nth 1 ms k0 in
      Ok (r1, r0', upd (upd ms (2 * n) m2) (2 * n + 1) m3))
    end.
  (** Fewer than two moments: IndexError *)
  Definition py_moments (num : nat) (starter : list R) (h2 : csr) : outcome (list R) :=
    if num <? 2 then Throw
    else obind (csr_dot h2 starter) (fun t =>
      let r1 := map (fun v => v * half) t in
      let ms := upd (upd (repeat k0 num) 0 (dot R starter starter * half)) 1 (dot R r1 starter) in
      omap snd (ofold (py_step h2) (seq 1 (num / 2 - 1)) (starter, r1, ms))).

  (** chebyshev.py:520-525 [_exval_starter] *)
  Definition py_starter (size i : nat) : outcome (list R) := if i <? size then Ok (upd (repeat k0 size) i k1) else Throw.
End PyKpm.

Local Open Scope R_scope.

(** chebyshev.py:471-491 [_scaling_factors], the bounds are given *)
Definition py_scale (lo hi : R) : scale := Scale (/ 2 * (hi - lo) * (1 + tolerance)) (/ 2 * (hi + lo)).

(** chebyshev.py:527-534 [_reconstruct_real]: [None] where numpy gives nan or inf *)
Definition py_reconstruct (ms : list R) (s : scale) (E : R) : option R :=
  let w := (E - s_b s) / s_a s in
  let k := 2 / (s_a s * PI) in
  if Rlt_dec 0 (1 - w ^ 2) then Some (k / sqrt (1 - w ^ 2) * rsum (fun n => nth n ms 0 * cos (INR n * acos w)) (length ms))
  else None.

Section PyLdos.
  Variable kn : kernel_def.
  Variables lo hi : R.
  Let s := py_scale lo hi.

  (** chebyshev.py:536-548 [_ldos] *)
  Definition py_ldos (h : list (list (nat * CX))) (i : nat) (broadening : R) (energy : list R) : outcome (list (option R)) :=
    obind (kn_required kn (broadening / s_a s)) (fun num =>
    let h2 := py_rescale CX (re (/ s_a s)) (re (s_b s)) h in
    obind (py_starter CX (length h2) i) (fun starter =>
    obind (py_moments CX cx_half num starter h2) (fun ms =>
    Ok (map (py_reconstruct (map fst (map (fun p => kmul (snd p) (re (kn_g kn num (fst p)))) (combine (seq 0 (length ms)) ms))) s) energy)))).
End PyLdos.

(** Sum over the orbitals of a site, energy by energy: [np.sum(result_data, axis=1)], chebyshev.py:550-559.
    An empty list of columns makes numpy raise (no axis 1). *)
Definition oplus (a b : option R) : option R := match a, b with Some x, Some y => Some (x + y) | _, _ => None end.
Definition sum_columns (energies : nat) (cols : list (list (option R))) : list (option R) :=
  map (fun j => fold_left (fun acc c => oplus acc (nth j c None)) cols (Some 0)) (seq 0 energies).
Definition py_calc_ldos (kn : kernel_def) (lo hi : R) (h : list (list (nat * CX))) (orbitals : list nat) (broadening : R) (energy : list R) (reduce : bool)
  : outcome (list (list (option R))) :=
  obind (osequence (fun i => py_ldos kn lo hi h i broadening energy) orbitals) (fun cols =>
  match cols with
  | [] => Throw
  | _ => Ok (if reduce then [sum_columns (length energy) cols] else cols)
  end).

(** KPM.cpp:55-65: the sum is taken if there is more than one column *)
Definition cpp_calc_ldos (f : format) (kn : kernel_def) (al : algorithm) (lo hi : R) (h : list (list (nat * CX))) (orbitals : list nat)
  (broadening : R) (energy : list R) (reduce : bool) : outcome (list (list (option R))) :=
  obind (osequence (fun k => calc_ldos f kn al lo hi h orbitals k broadening energy) (seq 0 (length orbitals))) (fun cols =>
  Ok (if reduce && (1 <? length cols)%nat then [sum_columns (length energy) cols] else cols)).
