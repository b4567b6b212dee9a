(* ELLPACK storage and its matrix-vector kernels.

   Mirrors cppcore/include/numeric/ellmatrix.hpp, include/numeric/sparse.hpp:182-191,
   include/support/simd.hpp:116-135 (split_loop), the ELLPACK half of
   include/compute/kernel_polynomial.hpp:83-325 and include/kpm/Starter.hpp:93-118.

   Simplifications: exact arithmetic; the two column-major arrays [data] and [indices] are one
   list of rows, each row the list of its nnz_per_row (index, value) pairs; the rows added for
   alignment (ellmatrix.hpp:29-30) are left out because no loop reaches them; which addresses
   are aligned is an arbitrary predicate on the element index; a vector register is the list of
   its [step] lanes; the batch (matrix) kernels do the same arithmetic in every column, one row
   at a time, which is the case "nothing is aligned". *)
From Verif Require Import Base Scalar Kpm.

Section Ell.
  Variable R : scalar.
  Variable half : R.
  Local Open Scope k_scope.

  (** ** Storage *)
  Record ell := Ell { el_nnz : nat; el_rows : list (list (nat * R)) }.

  (** sparse.hpp:182-191 *)
  Definition max_nnz_per_row (m : csr R) : nat :=
    fold_left (fun mx row => if mx <? length row then length row else mx) m 0.

  (** The fill loop of one row.  ellmatrix.hpp:69-79: the entries, then zeros whose index is the
      one of the row above. *)
  Fixpoint pad (prev : option (list (nat * R))) (n k : nat) : outcome (list (nat * R)) :=
    match k with
    | 0 => Ok []
    | S k' =>
        obind (match prev with
               | None => Ok 0
               | Some p => omap fst (aget p n)
               end) (fun c =>
        omap (cons (c, k0)) (pad prev (S n) k'))
    end.
  Definition ell_row (nnz : nat) (prev : option (list (nat * R))) (row : list (nat * R))
    : outcome (list (nat * R)) :=
    if length row <=? nnz then omap (app row) (pad prev (length row) (nnz - length row)%nat) else UB.

  (** [csr_to_ell].  ellmatrix.hpp:63-82 *)
  Definition csr_to_ell (m : csr R) : outcome ell :=
    let nnz := max_nnz_per_row m in
    omap (fun s => Ell nnz (fst s))
         (ofold (fun s row => omap (fun r => (fst s ++ [r], Some r)) (ell_row nnz (snd s) row))
                m ([], None)).

  (** [data(row, n)] with [indices(row, n)] *)
  Definition el_get (m : ell) (row n : nat) : outcome (nat * R) :=
    obind (aget (el_rows m) row) (fun es => aget es n).

  (** ** Generic kernels *)

  (** kernel_polynomial.hpp:93-95 *)
  Definition negate_rows (start stop : nat) (y : list R) : outcome (list R) :=
    ofold (fun y row => obind (aget y row) (fun c => Ok (upd y row (kopp c)))) (seq start (stop - start)%nat) y.

  (** kernel_polynomial.hpp:90-104 *)
  Definition ell_spmv_generic (m : ell) (start stop : nat) (x y : list R) : outcome (list R) :=
    obind (negate_rows start stop y) (fun y =>
    ofold (fun y n =>
      ofold (fun y row =>
               obind (el_get m row n) (fun e =>
               obind (aget x (fst e)) (fun bv =>
               obind (aget y row) (fun c => Ok (upd y row (c + snd e * bv))))))
            (seq start (stop - start)%nat) y)
      (seq 0 (el_nnz m)) y).

  (** kernel_polynomial.hpp:195-203 *)
  Definition ell_diag_generic (m : ell) (start stop : nat) (x y : list R) (m2 m3 : R) : outcome (list R * R * R) :=
    obind (ell_spmv_generic m start stop x y) (fun y' =>
    obind (segment R start stop x) (fun xs =>
    obind (segment R start stop y') (fun ys =>
    Ok (y', m2 + sq_norm R xs, m3 + dot R ys xs)))).

  (** Starter.hpp:93-105 *)
  Definition ell_make_r1 (m : ell) (r0 : list R) : outcome (list R) :=
    let size := length (el_rows m) in
    ofold (fun r1 n =>
      ofold (fun r1 row =>
               obind (el_get m row n) (fun e =>
               obind (aget r0 (fst e)) (fun bv =>
               obind (aget r1 row) (fun c => Ok (upd r1 row (c + snd e * bv * half))))))
            (seq 0 size) r1)
      (seq 0 (el_nnz m)) (repeat k0 size).

  (** ** Splitting a loop: simd.hpp:116-135 *)
  Record split := Split { sp_peel : nat; sp_vec : Z }.

  (** [while (!is_aligned(p + peel_end) && peel_end < end) ++peel_end]; [d] is the distance to the end. *)
  Fixpoint peel_loop (aligned : nat -> bool) (d pos : nat) : nat :=
    match d with
    | 0 => pos
    | S d' => if aligned pos then pos else peel_loop aligned d' (S pos)
    end.
  (** [while ((vec_end - peel_end) % step != 0) --vec_end] *)
  Fixpoint vec_loop (step : nat) (fuel : nat) (peel : nat) (v : Z) : option Z :=
    if (Z.rem (v - Z.of_nat peel) (Z.of_nat step) =? 0)%Z then Some v
    else match fuel with
         | 0 => None
         | S f => vec_loop step f peel (v - 1)
         end.
  Definition split_loop (aligned : nat -> bool) (step start stop : nat) : option split :=
    let peel := peel_loop aligned (stop - start)%nat start in
    option_map (Split peel) (vec_loop step step peel (Z.of_nat stop)).

  (** First rows of the vector iterations, then the rows of the remainder loop: the pointers are
      advanced by the iterations, not recomputed from the bounds. *)
  Definition vec_count (step : nat) (sp : split) : nat :=
    Z.to_nat ((sp_vec sp - Z.of_nat (sp_peel sp) + Z.of_nat step - 1) / Z.of_nat step).
  Definition peel_rows (start : nat) (sp : split) : list nat := seq start (sp_peel sp - start)%nat.
  Definition vec_rows (step : nat) (sp : split) : list nat :=
    map (fun k => sp_peel sp + k * step)%nat (seq 0 (vec_count step sp)).
  Definition rest_rows (step stop : nat) (sp : split) : list nat :=
    seq (sp_peel sp + vec_count step sp * step)%nat (Z.to_nat (Z.of_nat stop - sp_vec sp)).

  (** ** Vectorised kernels *)

  (** [a * b + c] with [c = (n == 0) ? -y : y].  kernel_polynomial.hpp:135-140, 143-147 *)
  Definition lane (m : ell) (x y : list R) (n row : nat) : outcome R :=
    obind (el_get m row n) (fun e =>
    obind (aget x (fst e)) (fun bv =>
    obind (aget y row) (fun c =>
    Ok (snd e * bv + (if n =? 0 then kopp c else c))))).

  Fixpoint lanes {A} (f : nat -> outcome A) (rows : list nat) : outcome (list A) :=
    match rows with
    | [] => Ok []
    | r :: rs => obind (f r) (fun v => omap (cons v) (lanes f rs))
    end.
  Definition store (y : list R) (row : nat) (vs : list R) : list R :=
    fold_left (fun y p => upd y (fst p) (snd p)) (combine (seq row (length vs)) vs) y.

  Definition scalar_step (m : ell) (x : list R) (n : nat) (y : list R) (row : nat) : outcome (list R) :=
    omap (upd y row) (lane m x y n row).
  Definition vector_step (m : ell) (x : list R) (step n : nat) (y : list R) (row : nat) : outcome (list R) :=
    omap (store y row) (lanes (lane m x y n) (seq row step)).

  (** One pass over column [n].  kernel_polynomial.hpp:130-154 *)
  Definition column_pass (m : ell) (x : list R) (step start stop : nat) (sp : split) (n : nat) (y : list R) : outcome (list R) :=
    obind (ofold (scalar_step m x n) (peel_rows start sp) y) (fun y =>
    obind (ofold (vector_step m x step n) (vec_rows step sp) y) (fun y =>
    ofold (scalar_step m x n) (rest_rows step stop sp) y)).

  (** kernel_polynomial.hpp:122-157; [n < nnz_per_row - skip_last_n] *)
  Definition ell_spmv_simd (aligned : nat -> bool) (step skip : nat) (m : ell) (start stop : nat) (x y : list R)
    : outcome (list R) :=
    match split_loop aligned step start stop with
    | None => UB
    | Some sp => ofold (fun y n => column_pass m x step start stop sp n y) (seq 0 (el_nnz m - skip)%nat) y
    end.

  (** The fused last column.  kernel_polynomial.hpp:244-255, 270-281 *)
  Definition scalar_fused (m : ell) (x : list R) (n : nat) (s : list R * R * R) (row : nat) : outcome (list R * R * R) :=
    match s with (y, m2, m3) =>
      obind (lane m x y n row) (fun r2 =>
      obind (aget x row) (fun r1 =>
      Ok (upd y row r2, m2 + kconj r1 * r1, m3 + kconj r2 * r1)))
    end.
  (** kernel_polynomial.hpp:256-269: the register lanes accumulate separately. *)
  Definition vector_fused (m : ell) (x : list R) (step n : nat) (s : list R * list R * list R) (row : nat)
    : outcome (list R * list R * list R) :=
    match s with (y, v2, v3) =>
      obind (lanes (lane m x y n) (seq row step)) (fun r2 =>
      obind (lanes (aget x) (seq row step)) (fun r1 =>
      Ok (store y row r2,
          map (fun p => fst p + kconj (snd p) * snd p) (combine v2 r1),
          map (fun p => fst p + kconj (fst (snd p)) * snd (snd p)) (combine v3 (combine r2 r1)))))
    end.
  Definition reduce_add (v : list R) : R := ksum (fun a => a) v.

  (** kernel_polynomial.hpp:220-285; with nnz_per_row = 0 the address [&matrix.data(0, -1)] is used *)
  Definition ell_diag_simd (aligned : nat -> bool) (step : nat) (m : ell) (start stop : nat) (x y : list R) (m2 m3 : R)
    : outcome (list R * R * R) :=
    match split_loop aligned step start stop with
    | None => UB
    | Some sp =>
        obind (ell_spmv_simd aligned step 1 m start stop x y) (fun y =>
        match el_nnz m with
        | 0 => UB
        | S n =>
            obind (ofold (scalar_fused m x n) (peel_rows start sp) (y, m2, m3)) (fun s =>
            match s with (y, m2, m3) =>
              obind (ofold (vector_fused m x step n) (vec_rows step sp) (y, repeat k0 step, repeat k0 step)) (fun s =>
              match s with (y, v2, v3) =>
                obind (ofold (scalar_fused m x n) (rest_rows step stop sp) (y, m2, m3)) (fun s =>
                match s with (y, m2, m3) => Ok (y, m2 + reduce_add v2, m3 + reduce_add v3) end)
              end)
            end)
        end)
    end.

  (** ** As kernels of the moment loops.  OptimizedHamiltonian.cpp:33-35 converts the matrix. *)
  Definition fail_kernel : kernel R := Kernel 0 (fun _ _ _ _ => UB) (fun _ _ _ _ _ _ => UB) (fun _ => UB).
  Definition ell_kernel_generic (m : csr R) : kernel R :=
    match csr_to_ell m with
    | Ok e => Kernel (length (el_rows e)) (ell_spmv_generic e) (ell_diag_generic e) (ell_make_r1 e)
    | _ => fail_kernel
    end.
  Definition ell_kernel_simd (aligned : nat -> bool) (step : nat) (m : csr R) : kernel R :=
    match csr_to_ell m with
    | Ok e => Kernel (length (el_rows e)) (ell_spmv_simd aligned step 0 e) (ell_diag_simd aligned step e) (ell_make_r1 e)
    | _ => fail_kernel
    end.
End Ell.
