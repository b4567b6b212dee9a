(* Kernel polynomial method: optimised Hamiltonian, matrix-vector kernels, moment loops and
   collectors.

   Mirrors cppcore/include/kpm/OptimizedHamiltonian.hpp, src/kpm/OptimizedHamiltonian.cpp,
   include/kpm/calc_moments.hpp, src/kpm/default/collectors.cpp, include/kpm/Starter.hpp,
   include/compute/kernel_polynomial.hpp (CSR part; the ELLPACK part is in KpmEll.v).

   Simplifications: exact arithmetic (any commutative ring with conjugation); a compressed row
   matrix is the list of its rows, each row the list of its (column, value) entries in storage
   order; [inv_a] stands for 1/a and [half] for 0.5; the real and complex element types share
   one definition; the batch (matrix) version of a kernel is the vector version on each column. *)
From Verif Require Import Base Scalar.

Section Kpm.
  Variable R : scalar.
  Variable half : R.
  Local Open Scope k_scope.

  Definition csr := list (list (nat * R)).

  (** ** Compressed row kernels: compute/kernel_polynomial.hpp:13-68 *)

  (** Inner loop: [r += mul(data[n], x[indices[n]])].  kernel_polynomial.hpp:27-29 *)
  Definition row_mul (row : list (nat * R)) (x : list R) : outcome R :=
    ofold (fun r e => obind (aget x (fst e)) (fun v => Ok (r + snd e * v))) row k0.

  (** [y = matrix * x - y] on rows [start, end).  kernel_polynomial.hpp:18-32 *)
  Definition csr_spmv (m : csr) (start stop : nat) (x y : list R) : outcome (list R) :=
    ofold (fun y row =>
             obind (aget m row) (fun es =>
             obind (row_mul es x) (fun r =>
             obind (aget y row) (fun v => Ok (upd y row (r - v))))))
          (seq start (stop - start)%nat) y.

  (** [x.segment(start, size)]: a negative size or a range past the end is not allowed. *)
  Definition segment (start stop : nat) (x : list R) : outcome (list R) :=
    if (start <=? stop) && (stop <=? length x) then Ok (firstn (stop - start)%nat (skipn start x)) else UB.

  (** Eigen [squaredNorm] and [dot] (conjugate-linear in the left argument). *)
  Definition sq_norm (x : list R) : R := ksum (fun v => kconj v * v) x.
  Definition dot (x y : list R) : R := ksum (fun p => kconj (fst p) * snd p) (combine x y).

  (** kernel_polynomial.hpp:60-68 *)
  Definition csr_spmv_diagonal (m : csr) (start stop : nat) (x y : list R) (m2 m3 : R)
    : outcome (list R * R * R) :=
    obind (csr_spmv m start stop x y) (fun y' =>
    obind (segment start stop x) (fun xs =>
    obind (segment start stop y') (fun ys =>
    Ok (y', m2 + sq_norm xs, m3 + dot ys xs)))).

  (** [r1 = h2 * r0 * 0.5].  kpm/Starter.hpp:52-70 *)
  Definition csr_make_r1 (m : csr) (r0 : list R) : outcome (list R) :=
    ofold (fun r1 row => obind (row_mul row r0) (fun t => Ok (r1 ++ [t * half]))) m [].

  (** The matrix interface used by the moment loops. *)
  Record kernel := Kernel {
    kr_rows : nat;
    kr_spmv : nat -> nat -> list R -> list R -> outcome (list R);
    kr_diag : nat -> nat -> list R -> list R -> R -> R -> outcome (list R * R * R);
    kr_r1 : list R -> outcome (list R)
  }.

  Definition csr_kernel (m : csr) : kernel :=
    Kernel (length m) (csr_spmv m) (csr_spmv_diagonal m) (csr_make_r1 m).

  (** ** Slice map: kpm/OptimizedHamiltonian.hpp:51-96 *)
  Record slice_map := SliceMap { sm_data : list nat; sm_src : nat; sm_dest : nat }.

  (** [SliceMap(system_size)].  OptimizedHamiltonian.hpp:61 *)
  Definition slice_map_simple (size : nat) : slice_map := SliceMap [size] 0 0.

  Definition last_index (m : slice_map) : Z := Z.of_nat (length (sm_data m)) - 1.

  (** [SliceMap::index].  OptimizedHamiltonian.hpp:67-77.  C++ division truncates towards zero. *)
  Definition slice_index (m : slice_map) (n num_moments : Z) : Z :=
    let src := Z.of_nat (sm_src m) in
    let dest := Z.of_nat (sm_dest m) in
    let mid := Z.quot (num_moments - 1 + dest - src) 2 in
    let max := Z.min (last_index m) (mid + src) in
    if (n <? mid)%Z then Z.min max (n + src) else Z.min max (num_moments - 1 - n + dest).

  (** [data[i]] with a signed index.  OptimizedHamiltonian.hpp:92 *)
  Definition slice_at (m : slice_map) (i : Z) : outcome nat :=
    if (i <? 0)%Z then UB else aget (sm_data m) (Z.to_nat i).

  (** [find_offset].  OptimizedHamiltonian.cpp:7-14: first border above the largest index. *)
  Definition max_index (idx : list nat) : outcome nat :=
    match idx with [] => UB | i :: t => Ok (fold_left Nat.max t i) end.
  Fixpoint first_above (data : list nat) (i : nat) : nat :=
    match data with [] => 0 | b :: t => if i <? b then 0 else S (first_above t i) end.
  Definition find_offset (data : list nat) (idx : list nat) : outcome nat :=
    obind (max_index idx) (fun m => Ok (first_above data m)).

  (** Source and destination indices.  OptimizedHamiltonian.hpp:16-49 *)
  Record indices := Indices { ix_src : list nat; ix_dest : list nat }.
  Fixpoint nat_list_eqb (a b : list nat) : bool :=
    match a, b with
    | [], [] => true
    | x :: a', y :: b' => (x =? y) && nat_list_eqb a' b'
    | _, _ => false
    end.
  Definition is_diagonal (i : indices) : bool := nat_list_eqb (ix_src i) (ix_dest i).
  Definition indices_eqb (a b : indices) : bool :=
    nat_list_eqb (ix_src a) (ix_src b) && nat_list_eqb (ix_dest a) (ix_dest b).

  (** OptimizedHamiltonian.cpp:5-18 *)
  Definition make_slice_map (data : list nat) (idx : indices) : outcome slice_map :=
    obind (find_offset data (ix_src idx)) (fun s =>
    obind (find_offset data (ix_dest idx)) (fun d => Ok (SliceMap data s d))).

  (** ** Scaling: [H2 = (H - I*b) * (2/a)] *)
  Variable inv_a b : R.
  (** [inverted_a = 2 / a] *)
  Definition inverted_a : R := (k1 + k1) * inv_a.

  (** [h2.insert(row, col) = value]: compressed rows are sorted by column. *)
  Fixpoint row_insert (e : nat * R) (row : list (nat * R)) : list (nat * R) :=
    match row with
    | [] => [e]
    | e' :: t => if fst e <=? fst e' then e :: row else e' :: row_insert e t
    end.

  (** [create_scaled].  OptimizedHamiltonian.cpp:54-72.  The sparse difference [h - I*b] has the
      union of both patterns. *)
  Definition has_col (c : nat) (row : list (nat * R)) : bool := existsb (fun e => fst e =? c) row.
  Definition shifted_row (r : nat) (row : list (nat * R)) : list (nat * R) :=
    let diff := map (fun e => (fst e, if fst e =? r then snd e - b else snd e)) row in
    if has_col r row then diff else row_insert (r, k0 - b) diff.
  Definition scaled_row (r : nat) (row : list (nat * R)) : list (nat * R) :=
    map (fun e => (fst e, snd e * inverted_a)) (if keqb b k0 then row else shifted_row r row).
  Definition create_scaled (h : csr) : csr :=
    map (fun p => scaled_row (fst p) (snd p)) (combine (seq 0 (length h)) h).

  (** ** Reordering: [create_reordered].  OptimizedHamiltonian.cpp:74-152 *)

  (** [reorder_map] uses -1 for "not yet mapped": [None] here. *)
  Record bfs := Bfs {
    bf_queue : list nat;               (* index_queue *)
    bf_map : list (option nat);        (* reorder_map *)
    bf_borders : list nat;             (* slice_border_indices *)
    bf_h2 : csr                        (* rows of the new matrix filled so far *)
  }.

  (** State of the loop over one row: queue, map, new row, diagonal_inserted. *)
  Definition row_state := (list nat * list (option nat) * list (nat * R) * bool)%type.

  (** Loop body for one element.  OptimizedHamiltonian.cpp:113-131 *)
  Definition visit_entry (row : nat) (s : row_state) (e : nat * R) : outcome row_state :=
    match s with (q, rm, out, dg) =>
      obind (aget rm (fst e)) (fun slot =>
      let '(q', rm', c) := match slot with
                           | None => (q ++ [fst e], upd rm (fst e) (Some (length q)), length q)
                           | Some c => (q, rm, c)
                           end in
      let v := snd e * inverted_a in
      if row =? fst e then Ok (q', rm', row_insert (c, v - b * inverted_a) out, true)
      else Ok (q', rm', row_insert (c, v) out, dg))
    end.

  (** One iteration over [h2_row].  OptimizedHamiltonian.cpp:107-143 *)
  Definition visit_row (h : csr) (s : bfs) (h2_row : nat) : outcome bfs :=
    obind (aget (bf_queue s) h2_row) (fun row =>
    obind (aget h row) (fun es =>
    obind (ofold (visit_entry row) es (bf_queue s, bf_map s, [], false)) (fun st =>
    match st with (q, rm, out, dg) =>
      let out' := if negb (keqb b k0) && negb dg
                  then row_insert (h2_row, kopp b * inverted_a) out else out in
      match last (map Some (bf_borders s)) None with
      | None => UB
      | Some back =>
        let borders := if S h2_row =? back then bf_borders s ++ [length q] else bf_borders s in
        Ok (Bfs q rm borders (bf_h2 s ++ [out']))
      end
    end))).

  (** Look an index up in the map; an unmapped one (-1) is stored as such in the C++ code and
      then used as an index, so it is undefined behaviour. *)
  Definition map_index (rm : list (option nat)) (i : nat) : outcome nat :=
    obind (aget rm i) (fun o => match o with Some j => Ok j | None => UB end).
  Definition map_indices (rm : list (option nat)) (l : list nat) : outcome (list nat) :=
    ofold (fun acc i => obind (map_index rm i) (fun j => Ok (acc ++ [j]))) l [].

  (** The optimised Hamiltonian.  OptimizedHamiltonian.hpp:180-192 *)
  Record optimized := Optimized {
    oh_matrix : csr;
    oh_idx : indices;                    (* optimized_idx *)
    oh_map : slice_map;
    oh_reorder : list (option nat)       (* empty when not reordered *)
  }.

  (** The initial state of the breadth-first loop.  OptimizedHamiltonian.cpp:91-103 *)
  Definition bfs_start (size src : nat) : outcome bfs :=
    if src <? size then Ok (Bfs [src] (upd (repeat None size) src (Some 0)) [1] []) else UB.

  (** [src[0]] of an empty index array is an invalid read. *)
  Definition create_reordered (h : csr) (idx : indices) : outcome optimized :=
    obind (aget (ix_src idx) 0) (fun src =>
    obind (bfs_start (length h) src) (fun s0 =>
    obind (ofold (visit_row h) (seq 0 (length h)) s0) (fun s =>
    let borders := removelast (bf_borders s) in
    obind (map_indices (bf_map s) (ix_src idx)) (fun osrc =>
    obind (map_indices (bf_map s) (ix_dest idx)) (fun odest =>
    let oidx := Indices osrc odest in
    obind (make_slice_map borders oidx) (fun sm =>
    Ok (Optimized (bf_h2 s) oidx sm (bf_map s)))))))).

  (** [Optimize::operator()] without the format conversion.  OptimizedHamiltonian.cpp:20-40.
      The slice map of an object that was never reordered is the one of the constructor,
      OptimizedHamiltonian.hpp:120. *)
  Definition optimize (h : csr) (reorder : bool) (idx : indices) : outcome optimized :=
    if reorder then create_reordered h idx
    else Ok (Optimized (create_scaled h) idx (slice_map_simple (length h)) []).

  (** [reorder(Vector&)].  OptimizedHamiltonian.hpp:126-136 *)
  Definition reorder_vec (rm : list (option nat)) (v : list R) : outcome (list R) :=
    match rm with
    | [] => Ok v
    | _ => ofold (fun out i =>
             obind (map_index rm i) (fun j =>
             obind (aget v i) (fun x =>
             if j <? length out then Ok (upd out j x) else UB)))
           (seq 0 (length v)) (repeat k0 (length v))
    end.

  (** [reorder(SparseMatrix&)].  OptimizedHamiltonian.hpp:138-152 *)
  Definition reorder_csr (rm : list (option nat)) (m : csr) : outcome csr :=
    match rm with
    | [] => Ok m
    | _ => ofold (fun out r =>
             obind (aget m r) (fun es =>
             ofold (fun out e =>
               obind (map_index rm r) (fun r' =>
               obind (map_index rm (fst e)) (fun c' =>
               obind (aget out r') (fun row =>
               Ok (upd out r' (row_insert (c', snd e) row)))))) es out))
           (seq 0 (length m)) (repeat [] (length m))
    end.

  (** ** Moment loops: kpm/calc_moments.hpp *)
  Section Loops.
    Variable kr : kernel.
    Variable map : slice_map.
    Variable opt_size : bool.

    (** Number of rows to process at step [n]. *)
    Definition step_size (n num : nat) : outcome nat :=
      if opt_size then slice_at map (slice_index map (Z.of_nat n) (Z.of_nat num)) else Ok (kr_rows kr).
    Definition step_max (n num : nat) : Z :=
      if opt_size then slice_index map (Z.of_nat n) (Z.of_nat num) else last_index map.

    (** ["for (n = 2; n < stop; n += step)"]. *)
    Definition range_from2 (stop step : nat) : list nat :=
      List.map (fun j => (2 + step * j)%nat) (seq 0 ((stop - 2 + step - 1) / step)%nat).

    Section Diagonal.
      Variable C : Type.
      Variable collect : C -> nat -> R -> R -> C.

      (** calc_moments.hpp:35-51 *)
      Definition basic_diag (num : nat) (c : C) (r0 r1 : list R) : outcome C :=
        omap (fun s => fst (fst s))
          (ofold (fun (s : C * list R * list R) n =>
             match s with (c, r0, r1) =>
               obind (step_size n num) (fun size =>
               obind (kr_diag kr 0 size r1 r0 k0 k0) (fun res =>
               match res with (r0', m2, m3) => Ok (collect c n m2 m3, r1, r0') end))
             end) (range_from2 (S (num / 2)%nat) 1) (c, r0, r1)).

      (** Inner loop state: r0, r1, m2, m3, m4, m5, start0, start1. *)
      Definition inner_diag (max1 max2 : Z) (r0 r1 : list R)
        : outcome (list R * list R * (R * R) * (R * R)) :=
        omap (fun s => match s with (r0, r1, a, b, _, _) => (r0, r1, a, b) end)
          (ofold (fun (s : list R * list R * (R * R) * (R * R) * nat * nat) k =>
             match s with (r0, r1, (m2, m3), (m4, m5), start0, start1) =>
               obind (slice_at map (Z.of_nat k)) (fun end0 =>
               obind (if (Z.of_nat k =? max1)%Z then slice_at map max2 else Ok start0) (fun end1 =>
               obind (kr_diag kr start0 end0 r1 r0 m2 m3) (fun s0 =>
               match s0 with (r0', m2', m3') =>
                 obind (kr_diag kr start1 end1 r0' r1 m4 m5) (fun s1 =>
                 match s1 with (r1', m4', m5') =>
                   Ok (r0', r1', (m2', m3'), (m4', m5'), end0, end1)
                 end)
               end)))
             end) (seq 0 (Z.to_nat (max1 + 1))) (r0, r1, (k0, k0), (k0, k0), 0, 0)).

      (** calc_moments.hpp:61-89 *)
      Definition interleaved_diag (num : nat) (c : C) (r0 r1 : list R) : outcome C :=
        omap (fun s => fst (fst s))
          (ofold (fun (s : C * list R * list R) n =>
             match s with (c, r0, r1) =>
               obind (inner_diag (step_max n num) (step_max (S n) num) r0 r1) (fun res =>
               match res with (r0', r1', (m2, m3), (m4, m5)) =>
                 Ok (collect (collect c n m2 m3) (S n) m4 m5, r0', r1')
               end)
             end) (range_from2 (S (num / 2)%nat) 2) (c, r0, r1)).
    End Diagonal.

    Section OffDiagonal.
      Variable C : Type.
      Variable collect : C -> nat -> list R -> C.

      (** calc_moments.hpp:102-114 *)
      Definition basic_off (num : nat) (c : C) (r0 r1 : list R) : outcome C :=
        omap (fun s => fst (fst s))
          (ofold (fun (s : C * list R * list R) n =>
             match s with (c, r0, r1) =>
               obind (step_size n num) (fun size =>
               obind (kr_spmv kr 0 size r1 r0) (fun r0' => Ok (collect c n r0', r1, r0')))
             end) (range_from2 num 1) (c, r0, r1)).

      Definition inner_off (max1 max2 : Z) (r0 r1 : list R) : outcome (list R * list R) :=
        omap (fun s => match s with (r0, r1, _, _) => (r0, r1) end)
          (ofold (fun (s : list R * list R * nat * nat) k =>
             match s with (r0, r1, start0, start1) =>
               obind (slice_at map (Z.of_nat k)) (fun end0 =>
               obind (if (Z.of_nat k =? max1)%Z then slice_at map max2 else Ok start0) (fun end1 =>
               obind (kr_spmv kr start0 end0 r1 r0) (fun r0' =>
               obind (kr_spmv kr start1 end1 r0' r1) (fun r1' =>
               Ok (r0', r1', end0, start0)))))
             end) (seq 0 (Z.to_nat (max1 + 1))) (r0, r1, 0, 0)).

      (** calc_moments.hpp:121-146 *)
      Definition interleaved_off (num : nat) (c : C) (r0 r1 : list R) : outcome C :=
        omap (fun s => fst (fst s))
          (ofold (fun (s : C * list R * list R) n =>
             match s with (c, r0, r1) =>
               obind (inner_off (step_max n num) (step_max (S n) num) r0 r1) (fun res =>
               match res with (r0', r1') =>
                 Ok (collect (collect c n r0') (S n) r1', r0', r1')
               end)
             end) (range_from2 num 2) (c, r0, r1)).
    End OffDiagonal.
  End Loops.

  (** ** Collectors: src/kpm/default/collectors.cpp *)

  (** [DiagonalCollector]: moments, m0, m1.  collectors.cpp:5-15 *)
  Record diag_state := DiagState { dg_moments : list R; dg_m0 : R; dg_m1 : R }.
  Definition diag_initial (num : nat) (r0 r1 : list R) : diag_state :=
    let m0 := sq_norm r0 * half in
    let m1 := dot r1 r0 in
    DiagState (upd (upd (repeat k0 num) 0 m0) 1 m1) m0 m1.
  Definition diag_collect (s : diag_state) (n : nat) (m2 m3 : R) : diag_state :=
    DiagState
      (upd (upd (dg_moments s) (2 * (n - 1))%nat ((k1 + k1) * (m2 - dg_m0 s)))
           (2 * (n - 1) + 1)%nat ((k1 + k1) * m3 - dg_m1 s))
      (dg_m0 s) (dg_m1 s).

  (** Product of a compressed row matrix and a vector (Eigen [op * r]). *)
  Definition csr_mul (m : csr) (x : list R) : list R :=
    List.map (fun row => ksum (fun e => snd e * nth (fst e) x k0) row) m.

  (** [GenericCollector]: [beta.dot(op * r)], moment zero halved.  collectors.cpp:36-58.
      [op = None] is the empty operator. *)
  Definition generic_value (beta : list R) (op : option csr) (r : list R) : R :=
    dot beta (match op with Some m => csr_mul m r | None => r end).
  Definition generic_initial (num : nat) beta op (r0 r1 : list R) : list R :=
    upd (upd (repeat k0 num) 0 (generic_value beta op r0 * half)) 1 (generic_value beta op r1).
  Definition generic_collect beta op (s : list R) (n : nat) (r : list R) : list R :=
    upd s n (generic_value beta op r).

  (** [MultiUnitCollector].  collectors.cpp:60-75 *)
  Definition unit_initial (num : nat) (dest : list nat) (r0 r1 : list R) : list (list R) :=
    List.map (fun d => upd (upd (repeat k0 num) 0 (nth d r0 k0 * half)) 1 (nth d r1 k0)) dest.
  Definition unit_collect (dest : list nat) (s : list (list R)) (n : nat) (r : list R) : list (list R) :=
    List.map (fun p => upd (snd p) n (nth (fst p) r k0)) (combine dest s).

  (** [DenseMatrixCollector].  collectors.cpp:77-106 *)
  Definition dense_value (op : option csr) (r : list R) : list R :=
    match op with Some m => csr_mul m r | None => r end.
  Definition dense_initial (num : nat) op (r0 r1 : list R) : list (list R) :=
    upd (upd (repeat [] num) 0 (List.map (fun v => v * half) (dense_value op r0))) 1 (dense_value op r1).
  Definition dense_collect op (s : list (list R)) (n : nat) (r : list R) : list (list R) :=
    upd s n (dense_value op r).

  (** ** Algorithm selection: src/kpm/default/Compute.cpp:23-44 *)
  Record algorithm := Algorithm { al_size : bool; al_inter : bool }.

  Definition run_diag (kr : kernel) (map : slice_map) (al : algorithm) (num : nat) (r0 : list R)
    : outcome (list R) :=
    obind (kr_r1 kr r0) (fun r1 =>
    omap dg_moments
      ((if al_inter al then interleaved_diag kr map (al_size al) diag_state diag_collect
        else basic_diag kr map (al_size al) diag_state diag_collect)
         num (diag_initial num r0 r1) r0 r1)).

  Definition run_generic (kr : kernel) (map : slice_map) (al : algorithm) (num : nat)
      (beta : list R) (op : option csr) (r0 : list R) : outcome (list R) :=
    obind (kr_r1 kr r0) (fun r1 =>
      (if al_inter al then interleaved_off kr map (al_size al) _ (generic_collect beta op)
       else basic_off kr map (al_size al) _ (generic_collect beta op))
        num (generic_initial num beta op r0 r1) r0 r1).

  (** The collector reads [r\[idx.dest\[i\]\]] without a check. *)
  Definition run_units (kr : kernel) (map : slice_map) (al : algorithm) (num : nat)
      (dest : list nat) (r0 : list R) : outcome (list (list R)) :=
    if negb (forallb (fun d => d <? length r0) dest) then UB else
    obind (kr_r1 kr r0) (fun r1 =>
      (if al_inter al then interleaved_off kr map (al_size al) _ (unit_collect dest)
       else basic_off kr map (al_size al) _ (unit_collect dest))
        num (unit_initial num dest r0 r1) r0 r1).

  Definition run_dense (kr : kernel) (map : slice_map) (al : algorithm) (num : nat)
      (op : option csr) (r0 : list R) : outcome (list (list R)) :=
    obind (kr_r1 kr r0) (fun r1 =>
      (if al_inter al then interleaved_off kr map (al_size al) _ (dense_collect op)
       else basic_off kr map (al_size al) _ (dense_collect op))
        num (dense_initial num op r0 r1) r0 r1).

  (** [UnitStarter]: unit vector at source number [i], zero once the sources ran out.
      Starter.cpp:26-46 *)
  Definition unit_vector (size : nat) (src : list nat) (i : nat) : outcome (list R) :=
    match nth_error src i with
    | Some s => if s <? size then Ok (upd (repeat k0 size) s k1) else UB
    | None => Ok (repeat k0 size)
    end.
End Kpm.

Arguments csr_kernel {R} half m.
Arguments Kernel {R}. Arguments kr_rows {R}. Arguments kr_spmv {R}. Arguments kr_diag {R}. Arguments kr_r1 {R}.
Arguments Optimized {R}. Arguments oh_matrix {R}. Arguments oh_idx {R}. Arguments oh_map {R}. Arguments oh_reorder {R}.
Arguments Bfs {R}. Arguments bf_queue {R}. Arguments bf_map {R}. Arguments bf_borders {R}. Arguments bf_h2 {R}.
