(* The kernels of the kernel polynomial method in rounded arithmetic (C109).

   Mirrors cppcore/include/compute/kernel_polynomial.hpp:13-104 and 195-203, compute/detail.hpp:14-22,
   include/kpm/Starter.hpp:52-105 and src/kpm/default/collectors.cpp:5-15 with every operation replaced by
   an operation of an arbitrary arithmetic.  The moment loops are those of Kpm.v; the products by one half
   in [MultiUnitCollector] are exact there.  The order in which
   Eigen adds up [dot] and [squaredNorm] is left open: [f_sum] stands for any of them. *)
From Verif Require Import Base Scalar Kpm KpmSpec KpmEll RSum Cplx.
From Coq Require Import Reals Lra.
Local Open Scope R_scope.

(** Operations on stored numbers, without any law. *)
Record arith := Arith { f_add : CX -> CX -> CX; f_sub : CX -> CX -> CX; f_mul : CX -> CX -> CX; f_sum : list CX -> CX }.
Definition exact : arith := Arith kadd ksub kmul (fun l => ksum (fun z => z) l).

Section Kernels.
  Variable F : arith.
  Local Notation csr := (list (list (nat * CX))).

  (** kernel_polynomial.hpp:26-29 *)
  Definition fl_row (row : list (nat * CX)) (x : list CX) : outcome CX :=
    ofold (fun r e => obind (aget x (fst e)) (fun v => Ok (f_add F r (f_mul F (snd e) v)))) row k0.
  (** kernel_polynomial.hpp:18-32 *)
  Definition fl_spmv (m : csr) (start stop : nat) (x y : list CX) : outcome (list CX) :=
    ofold (fun y row =>
             obind (aget m row) (fun es =>
             obind (fl_row es x) (fun r =>
             obind (aget y row) (fun v => Ok (upd y row (f_sub F r v))))))
          (seq start (stop - start)%nat) y.
  Definition fl_dot (x y : list CX) : CX := f_sum F (map (fun p => f_mul F (kconj (fst p)) (snd p)) (combine x y)).
  Definition fl_sq_norm (x : list CX) : CX := fl_dot x x.
  (** kernel_polynomial.hpp:60-68 *)
  Definition fl_spmv_diagonal (m : csr) (start stop : nat) (x y : list CX) (m2 m3 : CX) : outcome (list CX * CX * CX) :=
    obind (fl_spmv m start stop x y) (fun y' =>
    obind (segment CX start stop x) (fun xs =>
    obind (segment CX start stop y') (fun ys =>
    Ok (y', f_add F m2 (fl_sq_norm xs), f_add F m3 (fl_dot ys xs))))).
  (** Starter.hpp:52-70 *)
  Definition fl_make_r1 (m : csr) (r0 : list CX) : outcome (list CX) :=
    ofold (fun r1 row => obind (fl_row row r0) (fun t => Ok (r1 ++ [f_mul F t cx_half]))) m [].
  Definition fl_kernel (m : csr) : kernel CX := Kernel (length m) (fl_spmv m) (fl_spmv_diagonal m) (fl_make_r1 m).

  (** collectors.cpp:5-15 *)
  Definition fl_initial (num : nat) (r0 r1 : list CX) : diag_state CX :=
    let m0 := f_mul F (fl_sq_norm r0) cx_half in
    let m1 := fl_dot r1 r0 in
    DiagState CX (upd (upd (repeat k0 num) 0 m0) 1 m1) m0 m1.
  Definition fl_collect (s : diag_state CX) (n : nat) (m2 m3 : CX) : diag_state CX :=
    DiagState CX
      (upd (upd (dg_moments CX s) (2 * (n - 1))%nat (f_mul F (re 2) (f_sub F m2 (dg_m0 CX s))))
           (2 * (n - 1) + 1)%nat (f_sub F (f_mul F (re 2) m3) (dg_m1 CX s)))
      (dg_m0 CX s) (dg_m1 CX s).
  (** Kpm.v:run_diag with the rounded collector. *)
  Definition fl_run_diag (kr : kernel CX) (map : slice_map) (al : algorithm) (num : nat) (r0 : list CX) : outcome (list CX) :=
    obind (kr_r1 kr r0) (fun r1 =>
    omap (dg_moments CX)
      ((if al_inter al then interleaved_diag CX kr map (al_size al) (diag_state CX) fl_collect
        else basic_diag CX kr map (al_size al) (diag_state CX) fl_collect)
         num (fl_initial num r0 r1) r0 r1)).

  (** ** ELLPACK kernels without vector instructions.  The sign change is exact. *)
  (** kernel_polynomial.hpp:90-104 *)
  Definition fl_ell_spmv (m : ell CX) (start stop : nat) (x y : list CX) : outcome (list CX) :=
    obind (negate_rows CX start stop y) (fun y =>
    ofold (fun y n =>
      ofold (fun y row =>
               obind (el_get CX m row n) (fun e =>
               obind (aget x (fst e)) (fun bv =>
               obind (aget y row) (fun c => Ok (upd y row (f_add F c (f_mul F (snd e) bv)))))))
            (seq start (stop - start)%nat) y)
      (seq 0 (el_nnz CX m)) y).
  (** kernel_polynomial.hpp:195-203 *)
  Definition fl_ell_diag (m : ell CX) (start stop : nat) (x y : list CX) (m2 m3 : CX) : outcome (list CX * CX * CX) :=
    obind (fl_ell_spmv m start stop x y) (fun y' =>
    obind (segment CX start stop x) (fun xs =>
    obind (segment CX start stop y') (fun ys =>
    Ok (y', f_add F m2 (fl_sq_norm xs), f_add F m3 (fl_dot ys xs))))).
  (** Starter.hpp:93-105 *)
  Definition fl_ell_make_r1 (m : ell CX) (r0 : list CX) : outcome (list CX) :=
    let size := length (el_rows CX m) in
    ofold (fun r1 n =>
      ofold (fun r1 row =>
               obind (el_get CX m row n) (fun e =>
               obind (aget r0 (fst e)) (fun bv =>
               obind (aget r1 row) (fun c => Ok (upd r1 row (f_add F c (f_mul F (f_mul F (snd e) bv) cx_half)))))))
            (seq 0 size) r1)
      (seq 0 (el_nnz CX m)) (repeat k0 size).
  Definition fl_ell_kernel (m : csr) : kernel CX :=
    match csr_to_ell CX m with
    | Ok e => Kernel (length (el_rows CX e)) (fl_ell_spmv e) (fl_ell_diag e) (fl_ell_make_r1 e)
    | _ => fail_kernel CX
    end.
End Kernels.

(** Complex operations out of real ones: [std::complex] addition and compute/detail.hpp:18-22. *)
Record real_arith := RealArith { r_add : R -> R -> R; r_sub : R -> R -> R; r_mul : R -> R -> R }.
Definition complex_add (a : real_arith) (z w : CX) : CX := (r_add a (fst z) (fst w), r_add a (snd z) (snd w)).
Definition complex_sub (a : real_arith) (z w : CX) : CX := (r_sub a (fst z) (fst w), r_sub a (snd z) (snd w)).
Definition complex_mul (a : real_arith) (z w : CX) : CX :=
  (r_sub a (r_mul a (fst z) (fst w)) (r_mul a (snd z) (snd w)), r_add a (r_mul a (fst z) (snd w)) (r_mul a (snd z) (fst w))).
(** Adding up along any binary tree: one accumulator, several accumulators, blocks of rows. *)
Inductive order := One | Both (l r : order).
Fixpoint leaves (o : order) : nat := match o with One => 1 | Both l r => leaves l + leaves r end.
Fixpoint add_up (add : CX -> CX -> CX) (o : order) (l : list CX) : CX :=
  match o with
  | One => nth 0 l k0
  | Both a b => add (add_up add a (firstn (leaves a) l)) (add_up add b (skipn (leaves a) l))
  end.
(** Complex arithmetic with the numbers of each sum added up in an order that may depend on their number. *)
Definition complex_arith (a : real_arith) (ord : nat -> order) : arith :=
  Arith (complex_add a) (complex_sub a) (complex_mul a) (fun l => match l with [] => k0 | _ => add_up (complex_add a) (ord (length l)) l end).

(** Rounding to the nearest number with [p] binary digits (no limit on the exponent). *)
Definition exponent (x : R) : R := IZR (Int_part (ln (Rabs x) / ln 2)).
Definition nearest (x : R) : Z := Int_part (x + / 2).
Definition round_to (p : nat) (x : R) : R :=
  if Req_EM_T x 0 then 0 else let s := Rpower 2 (INR p - 1 - exponent x) in IZR (nearest (x * s)) / s.
Definition digits (p : nat) : real_arith := RealArith (fun x y => round_to p (x + y)) (fun x y => round_to p (x - y)) (fun x y => round_to p (x * y)).
