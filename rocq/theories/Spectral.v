(* Kernels, scaling factors and reconstruction of spectral functions from Chebyshev moments, over
   the real numbers (floating-point rounding is not modelled).
   cppcore/src/kpm/Kernel.cpp, cppcore/include/kpm/Kernel.hpp, cppcore/include/kpm/Bounds.hpp,
   cppcore/include/kpm/reconstruct.hpp, cppcore/src/kpm/Core.cpp. *)
From Verif Require Import Base Scalar Kpm KpmCore KpmEll KpmFinal RSum Cplx.
From Coq Require Import Reals.
Local Open Scope R_scope.

(** ** Kernels: a damping coefficient per number of moments and index, and the number of moments
    for a scaled broadening. *)
Record kernel_def := KernelDef { kn_g : nat -> nat -> R; kn_required : R -> outcome nat }.

(** [static_cast<idx_t>]: towards zero *)
Definition trunc (x : R) : Z := if Rle_dec 0 x then Int_part x else (- Int_part (- x))%Z.
(** The last lines of Kernel.cpp:17-20, 34-37, 44-47.  Converting an infinite quotient to an integer is undefined. *)
Definition required (c s : R) : outcome nat :=
  if Req_EM_T s 0 then UB
  else match round_num_moments (trunc (c / s) + 1) with Some n => Ok (Z.to_nat n) | None => UB end.

(** Kernel.cpp:6-22 *)
Definition jackson_g (N n : nat) : R :=
  let Np := INR N + 1 in
  ((Np - INR n) * cos (PI * INR n / Np) + sin (PI * INR n / Np) / tan (PI / Np)) / Np.
Definition jackson : kernel_def := KernelDef jackson_g (required PI).
(** Kernel.cpp:24-39 *)
Definition lorentz_g (lambda : R) (N n : nat) : R := sinh (lambda * (1 - INR n / INR N)) / sinh lambda.
Definition lorentz (lambda : R) : outcome kernel_def :=
  if Rle_dec lambda 0 then Throw else Ok (KernelDef (lorentz_g lambda) (required lambda)).
(** Kernel.cpp:41-49 *)
Definition dirichlet : kernel_def := KernelDef (fun _ _ => 1) (required PI).

(** ** Scaling factors.  Bounds.hpp:11-33 *)
Record scale := Scale { s_a : R; s_b : R }.
Definition tolerance : R := / 100.
Definition make_scale (lo hi : R) : scale :=
  let a := / 2 * (hi - lo) * (1 + tolerance) in
  let b := / 2 * (hi + lo) in
  Scale a (if Rlt_dec (Rabs (b / a)) (/ 100 * tolerance) then 0 else b).
Definition scaled (s : scale) (v : R) : R := (v - s_b s) / s_a s.

(** ** Reconstruction.  [None] stands for a result that is not a finite number. *)
(** reconstruct.hpp:16-33 *)
Definition spectral_density (s : scale) (ms : list R) (E : R) : option R :=
  let x := scaled s E in
  if Rlt_dec 0 (1 - x * x)
  then Some (2 / PI / s_a s / sqrt (1 - x * x) * rsum (fun n => nth n ms 0 * cos (INR n * acos x)) (length ms))
  else None.
(** reconstruct.hpp:59-77: exp(-i n acos E) = cos - i sin *)
Definition greens_function (s : scale) (ms : list CX) (E : R) : option CX :=
  let x := scaled s E in
  if Rlt_dec 0 (1 - x * x)
  then Some (kmul (mk 0 (- 2 / s_a s / sqrt (1 - x * x)))
                  (ksum (fun n => kmul (nth n ms k0) (mk (cos (INR n * acos x)) (- sin (INR n * acos x)))) (seq 0 (length ms))))
  else None.

(** ** [Core::ldos] and [Core::dos], one column.  Core.cpp:58-90.
    The matrix is scaled with 1/a and b; [halved] moments, damping and reconstruction follow. *)
Section Calc.
  Variable f : format.
  Variable kn : kernel_def.
  Variable al : algorithm.
  Variables lo hi : R.
  Let s := make_scale lo hi.
  Local Notation csr := (list (list (nat * CX))).
  Definition damped (ms : list CX) : list CX := damp CX (fun N n => re (kn_g kn N n)) ms.
  Definition calc_ldos (h : csr) (idx : list nat) (k : nat) (broadening : R) (energy : list R) : outcome (list (option R)) :=
    obind (kn_required kn (broadening / s_a s)) (fun num =>
    obind (ldos_start CX (re (/ s_a s)) (re (s_b s)) h al idx) (fun oh =>
    obind (ldos_column CX cx_half (format_kernel CX cx_half f) h al num oh k) (fun ms =>
    Ok (map (spectral_density s (map fst (damped ms))) energy)))).
  (** [r]: the random vector *)
  Definition calc_dos (h : csr) (r : list CX) (broadening : R) (energy : list R) : outcome (list (option R)) :=
    obind (kn_required kn (broadening / s_a s)) (fun num =>
    obind (optimize CX (re (/ s_a s)) (re (s_b s)) h (al_reorder al) (Indices [0%nat] [0%nat])) (fun oh =>
    obind (dos_column CX cx_half (format_kernel CX cx_half f) al num oh r) (fun ms =>
    Ok (map (spectral_density s (map fst (damped ms))) energy)))).
  (** Core.cpp:92-117 *)
  Definition calc_greens (h : csr) (row col : nat) (broadening : R) (energy : list R) : outcome (list (option CX)) :=
    obind (kn_required kn (broadening / s_a s)) (fun num =>
    obind (core_greens CX cx_half (re (/ s_a s)) (re (s_b s)) (format_kernel CX cx_half f) h al num row [col]) (fun mss =>
    match mss with
    | ms :: _ => Ok (map (greens_function s (damped ms)) energy)
    | [] => UB
    end)).
End Calc.

(** ** Conductivity from its moments.  reconstruct.hpp:87-143 *)
(** Bounds.hpp:54 with Eigen's [LinSpaced]; one sample is the upper end *)
Definition linspaced (size : nat) (lo hi : R) : list R :=
  if (size =? 1)%nat then [hi] else map (fun i => lo + INR i * ((hi - lo) / INR (size - 1))) (seq 0 size).
(** [maxCoeff] and [minCoeff] of an empty array are undefined. *)
Definition max_coeff (l : list R) : outcome R := match l with [] => UB | x :: t => Ok (fold_left Rmax t x) end.
Definition min_coeff (l : list R) : outcome R := match l with [] => UB | x :: t => Ok (fold_left Rmin t x) end.
(** reconstruct.hpp:122-127 *)
Definition integrate (xs : list R) (f : list CX) : outcome CX :=
  obind (max_coeff xs) (fun mx => obind (min_coeff xs) (fun mn =>
  let coeff := (mx - mn) / INR (2 * length xs) in
  Ok (kmul (re coeff) (ksub (ksub (kmul (re 2) (ksum (fun x => x) f)) (nth 0 f k0)) (nth (length f - 1) f k0))))).
Definition expi (t : R) : CX := mk (cos t) (sin t).
(** reconstruct.hpp:107-120: element (m, n) *)
Definition g_p (en : R) (m n : nat) : CX :=
  kmul (kmul (ksub (re en) (kmul (mk 0 1) (re (INR n * sqrt (1 - en * en))))) (expi (acos en * INR n))) (re (cos (acos en * INR m))).
Definition gamma (en : R) (m n : nat) : CX := kadd (g_p en m n) (kconj (g_p en n m)).
(** reconstruct.hpp:129-131 *)
Definition fermi_dirac (inv_kbt mu E : R) : R := 1 / (1 + exp ((E - mu) * inv_kbt)).
(** reconstruct.hpp:133-136; [None] when the sample is not inside (-1, 1) *)
Definition sum_nm (num : nat) (ms : nat -> nat -> CX) (en : R) : CX :=
  kmul (re (1 / ((1 - en * en) * (1 - en * en))))
       (ksum (fun n => ksum (fun m => kmul (ms m n) (gamma en m n)) (seq 0 num)) (seq 0 num)).
(** reconstruct.hpp:96-143 with the samples of Core.cpp:148; [kbt]: Boltzmann constant times temperature *)
Definition kubo_bastin (lo hi : R) (size num : nat) (ms : nat -> nat -> CX) (kbt mu : R) : outcome CX :=
  let s := make_scale lo hi in
  let xs := map (scaled s) (linspaced size lo hi) in
  obind (integrate xs (map (fun en => kmul (re (fermi_dirac (s_a s / kbt) (scaled s mu) en)) (sum_nm num ms en)) xs)) (fun v =>
  Ok (kmul (re (4 / (s_a s * s_a s))) v)).
