(* The workload report of the kernel polynomial method.

   Mirrors cppcore/include/kpm/Stats.hpp, src/kpm/Stats.cpp:31-47, the counting functions of
   src/kpm/OptimizedHamiltonian.cpp:160-207 and SliceMap::uses_full_system
   (include/kpm/OptimizedHamiltonian.hpp:88-90).

   Simplifications: counters are unbounded natural numbers (size_t in C++, no overflow); the
   timers, the memory sizes and the text of the report are left out. *)
From Verif Require Import Base Scalar Kpm KpmEll KpmCore KpmFinal.

Section Stats.
  Variable R : scalar.
  Local Notation csr := (list (list (nat * R))).

  (** [csr.outerIndexPtr()\[rows\]]: where row number [rows] starts in the array of elements.
      OptimizedHamiltonian.cpp:165-168 *)
  Definition outer_index (m : csr) (rows : nat) : outcome nat :=
    if rows <=? length m then Ok (list_sum (map (@length _) (firstn rows m))) else UB.

  (** [NonZeros].  OptimizedHamiltonian.cpp:161-175 *)
  Definition non_zeros (f : format) (m : csr) (rows : nat) : outcome nat :=
    match f with
    | Csr => outer_index m rows
    | _ => Ok (rows * max_nnz_per_row R m)
    end.

  (** [map.optimal_size(n, num)].  OptimizedHamiltonian.hpp:83-85 *)
  Definition optimal_size (sm : slice_map) (n num : nat) : outcome nat :=
    slice_at sm (slice_index sm (Z.of_nat n) (Z.of_nat num)).

  (** [num_nonzeros].  OptimizedHamiltonian.cpp:177-192 *)
  Definition num_nonzeros (f : format) (oh : optimized R) (num : nat) (opt : bool) : outcome nat :=
    omap (fun r => if is_diagonal (oh_idx oh) then r / 2 else r)
      (if opt
       then ofold (fun r n => obind (optimal_size (oh_map oh) n num) (fun s =>
                              obind (non_zeros f (oh_matrix oh) s) (fun z => Ok (r + z)))) (seq 0 num) 0
       else obind (non_zeros f (oh_matrix oh) (length (oh_matrix oh))) (fun z => Ok (num * z))).

  (** [num_vec_elements].  OptimizedHamiltonian.cpp:194-207 *)
  Definition num_vec_elements (oh : optimized R) (num : nat) (opt : bool) : outcome nat :=
    omap (fun r => if is_diagonal (oh_idx oh) then r / 2 else r)
      (if opt
       then ofold (fun r n => obind (optimal_size (oh_map oh) n num) (fun s => Ok (r + s))) (seq 0 num) 0
       else Ok (num * length (oh_matrix oh))).

  (** OptimizedHamiltonian.hpp:88-90 *)
  Definition uses_full_system (sm : slice_map) (num : nat) : bool := length (sm_data sm) <? num / 2.

  (** Stats.hpp:19-30 *)
  Record stats := Stats {
    st_moments : nat; st_full : bool; st_nnz : nat; st_opt_nnz : nat; st_vec : nat; st_opt_vec : nat; st_mult : nat }.

  (** [Stats::reset].  Stats.cpp:31-47 *)
  Definition stats_reset (f : format) (oh : optimized R) (al : algorithm) (num mult : nat) : outcome stats :=
    obind (num_nonzeros f oh num false) (fun nnz =>
    obind (num_nonzeros f oh num (al_size al)) (fun opt_nnz =>
    obind (num_vec_elements oh num false) (fun vec =>
    obind (num_vec_elements oh num (al_size al)) (fun opt_vec =>
    Ok (Stats num (uses_full_system (oh_map oh) num) nnz opt_nnz vec opt_vec mult))))).

  (** Non-zero elements that are said to be processed: the numerator of [Stats::eps].
      Stats.cpp:49-51 *)
  Definition reported (s : stats) : nat := st_mult s * st_opt_nnz s.
End Stats.
Arguments outer_index {R}. Arguments non_zeros {R}. Arguments num_nonzeros {R}. Arguments num_vec_elements {R}. Arguments stats_reset {R}.

(** ** What is done: the moment loops themselves, run with kernels that count

    The loops of Kpm.v take the kernels as arguments.  Here a vector is a single number, the
    elements processed up to the time the vector was made; a product adds the elements of its
    rows to the count of its input, which is always the latest vector. *)
Definition zscalar : scalar.
Proof.
  refine (Scal Z 0%Z 1%Z Z.add Z.mul Z.sub Z.opp (fun x => x) Z.eqb _ _ _ _ _); try reflexivity.
  - constructor; intros; ring.
  - intros. apply Z.eqb_eq.
Defined.

Section Count.
  (** Elements of every row that a product goes through, and the number of rows. *)
  Variable per_row : nat -> nat.
  Variable rows : nat.

  Definition work (start stop : nat) : nat := list_sum (map per_row (seq start (stop - start))).

  Definition now (v : list zscalar) : Z := hd 0%Z v.
  Definition counted (x : list zscalar) (start stop : nat) : Z := (now x + Z.of_nat (work start stop))%Z.
  Definition counter : kernel zscalar :=
    Kernel rows
      (fun start stop x _ => Ok [counted x start stop])
      (fun start stop x _ _ m3 => Ok ([counted x start stop], counted x start stop, m3))
      (fun r0 => Ok [counted r0 0 rows]).

  (** As [run_diag] and [run_units] of Kpm.v, with a collector that keeps the latest count. *)
  Definition count_diag (sm : slice_map) (al : algorithm) (num : nat) : outcome Z :=
    obind (kr_r1 counter [0%Z]) (fun r1 =>
      (if al_inter al then interleaved_diag zscalar counter sm (al_size al) Z (fun _ _ m2 _ => m2)
       else basic_diag zscalar counter sm (al_size al) Z (fun _ _ m2 _ => m2))
        num (now r1) [0%Z] r1).
  Definition count_off (sm : slice_map) (al : algorithm) (num : nat) : outcome Z :=
    obind (kr_r1 counter [0%Z]) (fun r1 =>
      (if al_inter al then interleaved_off zscalar counter sm (al_size al) Z (fun _ _ v => now v)
       else basic_off zscalar counter sm (al_size al) Z (fun _ _ v => now v))
        num (now r1) [0%Z] r1).
End Count.

(** Elements of a row: the stored ones in a compressed row matrix (kernel_polynomial.hpp:25-29),
    as many as in the longest row in ELLPACK (kernel_polynomial.hpp:97-103). *)
Definition row_work {R : scalar} (f : format) (m : list (list (nat * R))) (i : nat) : nat :=
  match f with Csr => length (nth i m []) | _ => max_nnz_per_row R m end.
