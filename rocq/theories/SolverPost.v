(* What the eigensolver objects compute from eigenvalues and eigenvectors.
   cppcore/src/solver/Solver.cpp:5-46, 88-97; pybinding/solver.py:102-278, 306-333;
   pybinding/system.py:82-156 (with_data, reduce_orbitals).
   Real numbers are exact; [psi r n] is [eigenvectors[r, n]], a matrix with [rows] rows and one
   column per eigenvalue. *)
From Verif Require Import Base Scalar Rle RSum Cplx.
From Coq Require Import Reals.
Local Open Scope R_scope.

(** [np.sum] *)
Definition lsum (l : list R) : R := fold_right Rplus 0 l.

(** ** pybinding/system.py *)
(** [reshape((-1, norb)).sum(axis=1)]: numpy refuses [norb = 0] and sizes that do not fit. *)
Fixpoint row_sums (rows norb : nat) (l : list R) : list R :=
  match rows with O => [] | S k => lsum (firstn norb l) :: row_sums k norb (skipn norb l) end.
Definition reshape_sum (norb : nat) (l : list R) : outcome (list R) :=
  if (norb =? 0)%nat then Throw
  else if (length l mod norb =? 0)%nat then Ok (row_sums (length l / norb) norb l) else Throw.

(** system.py:126-156 [reduce_orbitals]; [site_counts] and [orbital_counts] of the system's
    CompressedSublattices.  [data] is one-dimensional. *)
Definition reduce_orbitals (d : rle) (data : list R) : outcome (list R) :=
  if (length data =? rle_size d)%nat then Ok data
  else if negb (length data =? hamiltonian_size d)%nat then Throw
  else omap snd (ofold (fun (st : nat * list R) (b : nat * nat) =>
         let stop := (fst st + fst b * snd b)%nat in
         obind (reshape_sum (snd b) (firstn (stop - fst st) (skipn (fst st) data))) (fun r => Ok (stop, snd st ++ r)))
       (combine (site_counts d) (orbital_counts d)) (O, [])).

(** system.py:82-85 and results.py:227-228: one value for each site, or an exception *)
Definition with_data (d : rle) (data : list R) : outcome (list R) :=
  obind (reduce_orbitals d data) (fun r => if (length r =? rle_size d)%nat then Ok r else Throw).

(** ** Broadened densities *)
Section Post.
  Variable vals : list R.
  Variable psi : nat -> nat -> CX.
  Variable rows : nat.
  Let n_vals := length vals.

  Definition gauss_scale (b : R) : R := 1 / (b * sqrt (2 * PI)).
  (** solver.py:189, 231, 274 *)
  Definition gaussian (b E En : R) : R := exp (- (1 / 2) * (En - E) ^ 2 / b ^ 2).
  (** Solver.cpp:11-18, 33-39 *)
  Definition gaussian_cpp (b E En : R) : R := let c := - (1 / 2) / b ^ 2 in exp ((En - E) ^ 2 * c).

  (** solver.py:187-189, one energy; Solver.cpp:9-21 *)
  Definition calc_dos (b E : R) : R := gauss_scale b * lsum (map (gaussian b E) vals).
  Definition calc_dos_cpp (b E : R) : R := gauss_scale b * lsum (map (gaussian_cpp b E) vals).

  Definition local_density (g : R -> R) (b : R) (r : nat) : R :=
    gauss_scale b * lsum (map (fun n => abs2 (psi r n) * g (nth n vals 0)) (seq 0 n_vals)).
  (** solver.py:273-276 and Solver.cpp:24-43, before [with_data] *)
  Definition spatial_ldos (b E : R) : list R := map (local_density (gaussian b E) b) (seq 0 rows).
  Definition spatial_ldos_cpp (b E : R) : list R := map (local_density (gaussian_cpp b E) b) (seq 0 rows).
  Definition calc_spatial_ldos (d : rle) (b E : R) : outcome (list R) := with_data d (spatial_ldos b E).

  (** solver.py:230-243, one energy: the orbitals of the site that [find_nearest] returned;
      [eigenvectors[index]] past the end is an IndexError. *)
  Definition calc_ldos (d : rle) (site : outcome nat) (b E : R) : outcome (list R) :=
    obind site (fun s => obind (to_hamiltonian_indices d s) (fun ix =>
    if forallb (fun r => (r <? rows)%nat) ix then Ok (map (local_density (gaussian b E) b) ix) else Throw)).
  (** with [reduce=True] *)
  Definition calc_ldos_reduced (d : rle) (site : outcome nat) (b E : R) : outcome R := omap lsum (calc_ldos d site b E).

  (** ** solver.py:306-333 [find_degenerate_states] *)
  Definition close_above (tol : R) (i : nat) : bool :=
    if Rlt_dec (Rabs (nth (i + 1) vals 0 - nth i vals 0)) tol then true else false.
  (** [np.diff(idx) != 1], positions plus one *)
  Definition breaks (idx : list nat) : list nat :=
    filter (fun p => negb (nth p idx O - nth (p - 1) idx O =? 1)%nat) (seq 1 (length idx - 1)).
  (** [np.split] *)
  Fixpoint pieces (l : list nat) (start : nat) (ps : list nat) : list (list nat) :=
    match ps with
    | [] => [skipn start l]
    | p :: t => firstn (p - start) (skipn start l) :: pieces l p t
    end.
  Definition find_degenerate_states (tol : R) : list (list nat) :=
    let idx := filter (close_above tol) (seq 0 (n_vals - 1)) in
    if (length idx =? 0)%nat then []
    else map (fun g => g ++ [(last g O + 1)%nat]) (pieces idx 0 (breaks idx)).

  (** ** solver.py:123-130 [calc_eigenvalues]: the probability of every state at one site.
      The eigenvector row is the site index itself. *)
  Definition average_group (prob : list R) (g : list nat) : list R :=
    let m := lsum (map (fun i => nth i prob 0) g) / INR (length g) in
    fold_left (fun p i => upd p i m) g prob.
  Definition calc_eigenvalues (site : outcome nat) (tol : R) : outcome (list R) :=
    obind site (fun s =>
    if (s <? rows)%nat
    then Ok (fold_left average_group (find_degenerate_states tol) (map (fun n => abs2 (psi s n)) (seq 0 n_vals)))
    else Throw).

  (** ** solver.py:155-161 [calc_probability] for a single state [n] and [reduce > 0] *)
  Definition same_level (tol : R) (n m : nat) : bool :=
    if Rlt_dec (Rabs (nth n vals 0 - nth m vals 0)) tol then true else false.
  Definition calc_probability (d : rle) (n : nat) (tol : R) : outcome (list R) :=
    if (n <? n_vals)%nat
    then let ns := filter (same_level tol n) (seq 0 n_vals) in
         with_data d (map (fun r => lsum (map (fun m => abs2 (psi r m)) ns)) (seq 0 rows))
    else Throw.
End Post.
