(* The kernel polynomial calculations offered to the user, up to the reconstruction of functions
   from moments: argument checks, number of moments, choice of start vectors and collectors.

   Mirrors cppcore/src/KPM.cpp, src/kpm/Core.cpp, include/kpm/Kernel.hpp:9-13, src/kpm/Starter.cpp,
   src/kpm/Moments.cpp.

   Simplifications: see Kpm.v.  [g N n] is the damping coefficient of the kernel; random vectors
   are arbitrary inputs; the final sums over moments (reconstruct.hpp) are left out because they
   use transcendental functions. *)
From Verif Require Import Base Scalar Kpm.
From Coq Require Import Ascii String.

(** [round_num_moments].  kpm/Kernel.hpp:9-13.  The loop [while ((n - 2) % 4 != 0) ++n] with fuel. *)
Fixpoint round_loop (fuel : nat) (n : Z) : option Z :=
  match fuel with
  | 0 => None
  | S f => if (Z.rem (n - 2) 4 =? 0)%Z then Some n else round_loop f (n + 1)
  end.
Definition round_fuel : nat := 4.
Definition round_num_moments (n : Z) : option Z := if (n <? 2)%Z then Some 2%Z else round_loop round_fuel n.

(** [head(n)] of an array: Eigen requires [0 <= n <= size]. *)
Definition head {A} (l : list A) (n : Z) : outcome (list A) :=
  if ((0 <=? n) && (n <=? Z.of_nat (List.length l)))%Z then Ok (firstn (Z.to_nat n) l) else UB.

(** Direction argument of [calc_conductivity].  KPM.cpp:131-148.  [find_first_of] returns [npos]
    when no letter of "xyz" occurs in the argument; [map\[c\]] of a missing key is a null pointer,
    which is then dereferenced. *)
Definition in_string (c : ascii) (s : string) : bool :=
  existsb (fun d => Ascii.eqb c d) (list_ascii_of_string s).
Definition direction_rejected (d : string) : bool :=
  negb (String.length d =? 2)%nat || negb (existsb (fun c => in_string c d) (list_ascii_of_string "xyz")).
Definition axis_of (c : ascii) : outcome nat :=
  if Ascii.eqb c "x" then Ok 0 else if Ascii.eqb c "y" then Ok 1 else if Ascii.eqb c "z" then Ok 2 else UB.
Definition conductivity_axes (d : string) : outcome (nat * nat) :=
  if direction_rejected d then Throw
  else match list_ascii_of_string d with
       | c0 :: c1 :: _ => obind (axis_of c0) (fun a => obind (axis_of c1) (fun b => Ok (a, b)))
       | _ => UB
       end.

Section Core.
  Variable R : scalar.
  Variable half : R.
  Variable inv_a b : R.
  Variable kr_of : list (list (nat * R)) -> kernel R.   (* CSR or ELLPACK kernel of a matrix *)
  Local Open Scope k_scope.
  Local Notation csr := (list (list (nat * R))).

  (** [AlgorithmConfig::reorder].  Config.hpp:17 *)
  Definition al_reorder (al : algorithm) : bool := al_size al || al_inter al.
  Definition no_size (al : algorithm) : algorithm := Algorithm false (al_inter al).

  (** Damping of one array of moments.  Kernel.hpp:28-33 *)
  Definition damp (g : nat -> nat -> R) (ms : list R) : list R :=
    map (fun p => snd p * g (List.length ms) (fst p)) (combine (seq 0 (List.length ms)) ms).

  Definition reorder_op (rm : list (option nat)) (op : option csr) : outcome (option csr) :=
    match op with None => Ok None | Some m => omap Some (reorder_csr R rm m) end.

  (** [Core::moments].  Core.cpp:35-56; GenericCollector constructor, collectors.cpp:36-46 *)
  Definition core_moments (g : nat -> nat -> R) (h : csr) (al : algorithm) (num : Z) (alpha beta : list R) (op : option csr)
    : outcome (list R) :=
    obind (optimize R inv_a b h (al_reorder al) (Indices [0] [0])) (fun oh =>
    match round_num_moments num with
    | None => UB
    | Some rounded =>
      obind (reorder_vec R (oh_reorder oh) alpha) (fun r0 =>
      let kr := kr_of (oh_matrix oh) in
      let n := Z.to_nat rounded in
      obind (match beta, op with
             | [], None => run_diag R half kr (oh_map oh) (no_size al) n r0
             | _, _ =>
               obind (reorder_vec R (oh_reorder oh) (match beta with [] => alpha | _ => beta end)) (fun beta' =>
               obind (reorder_op (oh_reorder oh) op) (fun op' =>
               run_generic R half kr (oh_map oh) (no_size al) n beta' op' r0))
             end) (fun ms => head (damp g ms) num))
    end).

  (** [KPM::moments] argument checks.  KPM.cpp:19-53.  A vector is real when every element equals
      its conjugate. *)
  Definition is_real (x : R) : bool := keqb (kconj x) x.
  Definition op_square (op : option csr) (size : nat) : bool :=
    match op with None => true | Some m => List.length m =? size end.
  Definition kpm_moments (g : nat -> nat -> R) (is_complex : bool) (h : csr) (al : algorithm) (num : Z)
      (alpha beta : list R) (op : option csr) : outcome (list R) :=
    let size := List.length h in
    if negb ((List.length alpha =? size) && ((List.length beta =? 0) || (List.length beta =? size)) && op_square op size)%nat
    then Throw
    else if negb is_complex && negb (forallb is_real alpha && forallb is_real beta
              && match op with None => true | Some m => forallb (forallb (fun e => is_real (snd e))) m end)
    then Throw
    else core_moments g h al num alpha beta op.

  (** [Core::greens_vector] before reconstruction.  Core.cpp:92-117 *)
  Definition core_greens (h : csr) (al : algorithm) (num : nat) (row : nat) (cols : list nat)
    : outcome (list (list R)) :=
    obind (optimize R inv_a b h (al_reorder al) (Indices [row] cols)) (fun oh =>
    let kr := kr_of (oh_matrix oh) in
    obind (unit_vector R (List.length h) (ix_src (oh_idx oh)) 0) (fun r0 =>
    if is_diagonal (oh_idx oh)
    then omap (fun ms => [ms]) (run_diag R half kr (oh_map oh) al num r0)
    else run_units R half kr (oh_map oh) al num (ix_dest (oh_idx oh)) r0)).

  (** [KPM::calc_greens] and [calc_greens_vector].  KPM.cpp:103-129 *)
  Definition greens_index_error (i size : Z) : bool := ((i <? 0) || (i >? size))%Z.
  Definition kpm_greens_vector (h : csr) (al : algorithm) (num : nat) (row : Z) (cols : list Z)
    : outcome (list (list R)) :=
    let size := Z.of_nat (List.length h) in
    if greens_index_error row size || existsb (fun c => greens_index_error c size) cols then Throw
    else core_greens h al num (Z.to_nat row) (map Z.to_nat cols).
  Definition kpm_greens (h : csr) (al : algorithm) (num : nat) (row col : Z) : outcome (list R) :=
    obind (kpm_greens_vector h al num row [col]) (fun l => aget l 0).

  (** One column of [Core::ldos]: the moments of the start vector number [k].  Core.cpp:58-72 *)
  Definition ldos_start (h : csr) (al : algorithm) (idx : list nat) : outcome (optimized R) :=
    optimize R inv_a b h (al_reorder al) (Indices idx idx).
  Definition ldos_column (h : csr) (al : algorithm) (num : nat) (oh : optimized R) (k : nat) : outcome (list R) :=
    obind (unit_vector R (List.length h) (ix_src (oh_idx oh)) k) (fun r0 =>
    run_diag R half (kr_of (oh_matrix oh)) (oh_map oh) al num r0).

  (** One random vector of [Core::dos].  Core.cpp:74-90, Starter.cpp:48-83; [r] is the vector in
      original order before [oh.reorder(r0)]. *)
  Definition dos_column (al : algorithm) (num : nat) (oh : optimized R) (r : list R) : outcome (list R) :=
    obind (reorder_vec R (oh_reorder oh) r) (fun r0 =>
    run_diag R half (kr_of (oh_matrix oh)) (oh_map oh) (no_size al) num r0).

  (** Velocity operator: elements times coordinate differences.  Moments.cpp:132-156 *)
  Definition velocity (h : csr) (x : list R) : outcome csr :=
    ofold (fun out row =>
      obind (aget h row) (fun es =>
      obind (ofold (fun acc e => obind (aget x row) (fun xr => obind (aget x (fst e)) (fun xc =>
                                 Ok (acc ++ [(fst e, snd e * (xr - xc))])))) es []) (fun es' =>
      Ok (out ++ [es'])))) (seq 0 (List.length h)) [].

  (** One term of the conductivity moments.  Core.cpp:119-150, Moments.cpp:92-101:
      [total += left * right.adjoint()]. *)
  Definition mul_adjoint (a c : list (list R)) : list (list R) :=
    map (fun u => map (fun v => ksum (fun p => fst p * kconj (snd p)) (combine u v)) c) a.
  Definition conductivity_term (al : algorithm) (num : nat) (oh : optimized R) (left right : csr) (r : list R)
    : outcome (list (list R)) :=
    let kr := kr_of (oh_matrix oh) in
    obind (reorder_vec R (oh_reorder oh) (csr_mul R left r)) (fun rl =>
    obind (run_dense R half kr (oh_map oh) (no_size al) num None rl) (fun ml =>
    obind (reorder_vec R (oh_reorder oh) r) (fun rr =>
    obind (reorder_csr R (oh_reorder oh) right) (fun right' =>
    obind (run_dense R half kr (oh_map oh) (no_size al) num (Some right') rr) (fun mr =>
    Ok (mul_adjoint ml mr)))))).
End Core.
