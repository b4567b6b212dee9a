(* Vector registers and the kernels written with them.

   Mirrors cppcore/include/support/simd.hpp:138-437 (gather, complex arithmetic and sums on registers),
   include/numeric/traits.hpp:107-114 (aligned_size), the vectorised half of
   include/compute/kernel_polynomial.hpp:122-183 and 220-322 (one vector and a batch of vectors) and
   include/compute/detail.hpp:15-41.

   A register is the list of its words (float or double, any commutative ring here); a complex number
   in memory is its real word followed by its imaginary word; memory is a list of words and reading or
   writing outside of it is undefined.  The operations of libsimdpp and the intrinsics follow their
   documentation: [permute2], [shuffle4x2] and [transpose2] act on every group of two or four words.

   Simplifications: exact arithmetic (a fused multiply-add is a product and a sum); casts from 128 to
   256 bits leave the upper half out until it is inserted; the index array and the matrix elements of a
   column are the lists of the [ell] of KpmEll.v. *)
From Verif Require Import Base Scalar Kpm KpmEll.

(** ** Complex numbers as pairs of words *)
Section Pair.
  Variable A : scalar.
  Add Ring Aring : (k_ring A).
  Local Open Scope k_scope.
  Definition p_add (z w : A * A) : A * A := (fst z + fst w, snd z + snd w).
  Definition p_opp (z : A * A) : A * A := (kopp (fst z), kopp (snd z)).
  Definition p_sub (z w : A * A) : A * A := (fst z - fst w, snd z - snd w).
  (** compute/detail.hpp:18-22 *)
  Definition p_mul (z w : A * A) : A * A := (fst z * fst w - snd z * snd w, fst z * snd w + snd z * fst w).
  Definition p_conj (z : A * A) : A * A := (fst z, kopp (snd z)).
  Definition p_eqb (z w : A * A) : bool := keqb (fst z) (fst w) && keqb (snd z) (snd w).
  Lemma pair_ring : ring_theory (k0, k0) (k1, k0) p_add p_mul p_sub p_opp (@eq (A * A)).
  Proof. constructor; intros; repeat match goal with z : (K A * K A)%type |- _ => destruct z end; unfold p_add, p_mul, p_sub, p_opp; cbn [fst snd]; f_equal; ring. Qed.
  Definition pair_scalar : scalar.
  Proof.
    refine (Scal (A * A) (k0, k0) (k1, k0) p_add p_mul p_sub p_opp p_conj p_eqb pair_ring _ _ _ _).
    - intros [a b] [c d]. unfold p_conj, p_add. cbn [fst snd]. f_equal; ring.
    - intros [a b] [c d]. unfold p_conj, p_mul. cbn [fst snd]. f_equal; ring.
    - intros [a b]. unfold p_conj. cbn [fst snd]. f_equal; ring.
    - intros [a b] [c d]. unfold p_eqb. cbn [fst snd]. rewrite andb_true_iff, !keqb_eq. split; [intros (-> & ->); reflexivity|intros E; injection E; auto].
  Defined.
End Pair.

(** Instruction sets and word sizes: simd.hpp:3-11, 33-56.  Registers have 32 bytes, emulated by two
    registers of 16 bytes before AVX. *)
Inductive arch := SSE | AVX | AVX2.
Inductive word := F32 | F64.
Definition word_bytes (w : word) : nat := match w with F32 => 4 | F64 => 8 end.
Definition register_words (w : word) : nat := 32 / word_bytes w.

(** ** Memory *)
Definition load {T} (mem : list T) (pos len : nat) : outcome (list T) :=
  if pos + len <=? length mem then Ok (firstn len (skipn pos mem)) else UB.
Definition store_at {T} (mem : list T) (pos : nat) (vs : list T) : outcome (list T) :=
  if pos + length vs <=? length mem then Ok (firstn pos mem ++ vs ++ skipn (pos + length vs) mem) else UB.
(** [reinterpret_cast<double const*>] of complex<float> numbers: two words at a time. *)
Fixpoint as_doubles {T} (mem : list T) : list (T * T) := match mem with x :: y :: r => (x, y) :: as_doubles r | _ => [] end.
Fixpoint as_floats {T} (mem : list (T * T)) : list T := match mem with (x, y) :: r => x :: y :: as_floats r | [] => [] end.

(** ** Gather *)
Section Gather.
  Context {T : Type}.
  Variable z : T.
  (** simd.hpp:151-154 *)
  Definition gather64x2 (mem : list T) (idx : list nat) : outcome (list T) :=
    obind (aget idx 0) (fun i0 => obind (aget mem i0) (fun a =>
    let low := [a; z] in
    obind (aget idx 1) (fun i1 => obind (aget mem i1) (fun b => Ok [nth 0 low z; b])))).
  (** simd.hpp:157-159: one complex number *)
  Definition gather64x2_complex (mem : list T) (idx : list nat) : outcome (list T) := obind (aget idx 0) (fun i0 => load mem (2 * i0) 2).
  (** simd.hpp:165-173 *)
  Definition load_ss (mem : list T) (idx : list nat) (k : nat) : outcome (list T) := obind (aget idx k) (fun i => obind (aget mem i) (fun a => Ok [a; z; z; z])).
  Definition unpacklo (a b : list T) : list T := [nth 0 a z; nth 0 b z; nth 1 a z; nth 1 b z].
  Definition gather32x4 (mem : list T) (idx : list nat) : outcome (list T) :=
    obind (load_ss mem idx 0) (fun a => obind (load_ss mem idx 1) (fun b => obind (load_ss mem idx 2) (fun c => obind (load_ss mem idx 3) (fun d =>
    Ok (unpacklo (unpacklo a c) (unpacklo b d)))))).
  (** [_mm256_set_pd] takes its arguments from the last word to the first: simd.hpp:187-190 *)
  Definition set_pd (d c b a : T) : list T := [a; b; c; d].
  Definition elem (mem : list T) (idx : list nat) (k : nat) : outcome T := obind (aget idx k) (aget mem).
  (** [_mm256_i32gather_pd], [_mm256_i32gather_ps] after loading the indices: simd.hpp:218-222, 235-239 *)
  Definition hw_gather (n : nat) (mem : list T) (idx : list nat) : outcome (list T) := obind (load idx 0 n) (fun ix => lanes (aget mem) ix).
  Definition gather64x4 (ar : arch) (mem : list T) (idx : list nat) : outcome (list T) :=
    match ar with
    | AVX2 => hw_gather 4 mem idx
    | _ => obind (elem mem idx 3) (fun d => obind (elem mem idx 2) (fun c => obind (elem mem idx 1) (fun b => obind (elem mem idx 0) (fun a => Ok (set_pd d c b a)))))
    end.
  (** [_mm256_insertf128_pd(a, b, 1)]: the low half of [a], then [b] *)
  Definition insert_high (a b : list T) : list T := a ++ b.
  Definition both (f g : outcome (list T)) : outcome (list T) := obind f (fun a => obind g (fun b => Ok (insert_high a b))).
  Definition gather64x4_complex (mem : list T) (idx : list nat) : outcome (list T) := both (gather64x2_complex mem idx) (gather64x2_complex mem (skipn 1 idx)).
  Definition gather32x8 (ar : arch) (mem : list T) (idx : list nat) : outcome (list T) :=
    match ar with
    | AVX2 => hw_gather 8 mem idx
    | _ => both (gather32x4 mem idx) (gather32x4 mem (skipn 4 idx))
    end.
  (** Emulated registers: simd.hpp:251-267; [index_step] is the number of scalars in a base register. *)
  Fixpoint emulated (n index_step : nat) (call : list nat -> outcome (list T)) (idx : list nat) : outcome (list T) :=
    match n with
    | 0 => Ok []
    | S n => obind (call idx) (fun a => omap (app a) (emulated n index_step call (skipn index_step idx)))
    end.
  Definition base_length (w : word) : nat := 16 / word_bytes w.
  Definition index_step (w : word) (scalar_words : nat) : nat := base_length w * word_bytes w / (scalar_words * word_bytes w).
End Gather.
(** Real numbers: simd.hpp:149-241. *)
Definition gather_real {T} (z : T) (ar : arch) (w : word) (mem : list T) (idx : list nat) : outcome (list T) :=
  match ar, w with
  | SSE, F64 => emulated (register_words w / base_length w) (index_step w 1) (gather64x2 z mem) idx
  | SSE, F32 => emulated (register_words w / base_length w) (index_step w 1) (gather32x4 z mem) idx
  | _, F64 => gather64x4 ar mem idx
  | _, F32 => gather32x8 z ar mem idx
  end.
(** Complex numbers: a complex<float> is gathered as one double. *)
Definition gather_complex {T} (z : T) (ar : arch) (w : word) (mem : list T) (idx : list nat) : outcome (list T) :=
  match ar, w with
  | SSE, F64 => emulated (register_words w / base_length w) (index_step w 2) (gather64x2_complex mem) idx
  | SSE, F32 => emulated (register_words w / base_length w) (index_step w 2) (fun idx => omap as_floats (gather64x2 (z, z) (as_doubles mem) idx)) idx
  | _, F64 => gather64x4_complex mem idx
  | _, F32 => omap as_floats (gather64x4 ar (as_doubles mem) idx)
  end.

(** ** Arithmetic on registers *)
Section Registers.
  Variable A : scalar.
  Local Open Scope k_scope.
  Notation reg := (list A).
  Definition lift2 (f : A -> A -> A) (a b : reg) : reg := map (fun p => f (fst p) (snd p)) (combine a b).
  Definition r_neg (a : reg) : reg := map kopp a.
  Definition pick (i : nat) (x y : A) : A := if i =? 0 then x else y.
  Fixpoint permute2 (i j : nat) (l : reg) : reg := match l with x :: y :: r => pick i x y :: pick j x y :: permute2 i j r | _ => [] end.
  Fixpoint shuffle4x2 (s0 s1 s2 s3 : nat) (a b : reg) : reg :=
    match a, b with
    | a0 :: a1 :: a2 :: a3 :: ra, b0 :: b1 :: b2 :: b3 :: rb =>
        let all := [a0; a1; a2; a3; b0; b1; b2; b3] in
        nth s0 all k0 :: nth s1 all k0 :: nth s2 all k0 :: nth s3 all k0 :: shuffle4x2 s0 s1 s2 s3 ra rb
    | _, _ => []
    end.
  Fixpoint transpose2 (a b : reg) : reg * reg :=
    match a, b with
    | a0 :: a1 :: ra, b0 :: b1 :: rb => let (p, q) := transpose2 ra rb in (a0 :: b0 :: p, a1 :: b1 :: q)
    | _, _ => ([], [])
    end.
  (** simd.hpp:297-300 *)
  Definition addsub_generic (a b : reg) : reg := lift2 kadd a (shuffle4x2 0 5 2 7 (r_neg b) b).
  (** [_mm256_addsub_pd]: simd.hpp:315-323 *)
  Fixpoint addsub_native (a b : reg) : reg :=
    match a, b with
    | a0 :: a1 :: ra, b0 :: b1 :: rb => (a0 - b0) :: (a1 + b1) :: addsub_native ra rb
    | _, _ => []
    end.
  Definition addsub (ar : arch) : reg -> reg -> reg := match ar with SSE => addsub_generic | _ => addsub_native end.
  (** simd.hpp:329-338 *)
  Definition complex_mul (ar : arch) (ab xy : reg) : reg :=
    let aa := permute2 0 0 ab in
    let axay := lift2 kmul aa xy in
    let bb := permute2 1 1 ab in
    let yx := permute2 1 0 xy in
    let bybx := lift2 kmul bb yx in
    addsub ar axay bybx.
  (** The sign bit of every second word is flipped: simd.hpp:343-351. *)
  Fixpoint conjugate (a : reg) : reg := match a with x :: y :: r => x :: kopp y :: conjugate r | _ => a end.
  (** simd.hpp:356-381 *)
  Definition madd_real (a b c : reg) : reg := lift2 kadd (lift2 kmul a b) c.
  Definition madd_complex (ar : arch) (a b c : reg) : reg := lift2 kadd (complex_mul ar a b) c.
  Definition conj_madd_complex (ar : arch) (a b c : reg) : reg := lift2 kadd (complex_mul ar (conjugate a) b) c.
  Definition total (a : reg) : A := ksum (fun x => x) a.
  (** simd.hpp:391-397 *)
  Definition total_complex (a : reg) : A * A := let (re, im) := transpose2 a (repeat k0 (length a)) in (total re, total im).
  (** simd.hpp:409-415 *)
  Definition reduce_imag_complex (a : reg) : reg := let (re, im) := transpose2 a (repeat k0 (length a)) in lift2 kadd re im.
  (** simd.hpp:425-435: a complex<float> is repeated as one double, the parts of a complex<double> are
      repeated and transposed. *)
  Definition splat_complex (w : word) (z : A * A) : reg :=
    match w with
    | F32 => as_floats (repeat z (register_words w / 2))
    | F64 => fst (transpose2 (repeat (fst z) (register_words w)) (repeat (snd z) (register_words w)))
    end.
End Registers.

(** ** One set of register operations for a scalar type *)
Record vectors (A S : scalar) := Vectors {
  v_words : nat;                          (** words of a scalar *)
  v_put : S -> list A; v_get : list A -> S;
  v_step : nat;                           (** scalars in a register *)
  v_gather : list A -> list nat -> outcome (list A);
  v_madd : list A -> list A -> list A -> list A;
  v_cmadd : list A -> list A -> list A -> list A;
  v_total : list A -> S;                  (** reduce_add_rc *)
  v_of_real : A -> S;
  v_square : S -> A;                      (** detail::square *)
  v_fold : list A -> list A;              (** reduce_imag *)
  v_splat : S -> list A }.
Arguments v_words {A S}. Arguments v_put {A S}. Arguments v_get {A S}. Arguments v_step {A S}. Arguments v_gather {A S}. Arguments v_madd {A S}.
Arguments v_cmadd {A S}. Arguments v_total {A S}. Arguments v_of_real {A S}. Arguments v_square {A S}. Arguments v_fold {A S}. Arguments v_splat {A S}.
Definition real_vectors (A : scalar) (ar : arch) (w : word) : vectors A A :=
  Vectors A A 1 (fun x => [x]) (fun l => nth 0 l k0) (register_words w) (gather_real k0 ar w) (madd_real A) (madd_real A) (total A) (fun x => x) (fun x => kmul x x) (fun l => l)
    (fun x => repeat x (register_words w)).
Definition complex_vectors (A : scalar) (ar : arch) (w : word) : vectors A (pair_scalar A) :=
  Vectors A (pair_scalar A) 2 (fun z => [fst z; snd z]) (fun l => (nth 0 l k0, nth 1 l k0)) (register_words w / 2) (gather_complex k0 ar w)
    (madd_complex A ar) (conj_madd_complex A ar) (total_complex A) (fun x => (x, k0)) (fun z => kadd (kmul (fst z) (fst z)) (kmul (snd z) (snd z))) (reduce_imag_complex A) (splat_complex A w).

(** ** Kernels on words *)
Section Kernels.
  Variables A S : scalar.
  Variable V : vectors A S.
  Local Open Scope k_scope.
  Notation q := (v_words V).
  Notation step := (v_step V).
  Definition flat (l : list S) : list A := concat (map (v_put V) l).
  (** A column of the matrix: [data] and [indices]. *)
  Definition column (m : ell S) (n : nat) : outcome (list (nat * S)) := lanes (fun r => el_get S m r n) (seq 0 (length (el_rows S m))).
  Definition read (mem : list A) (i : nat) : outcome S := omap (v_get V) (load mem (q * i) q).
  Definition write (mem : list A) (i : nat) (s : S) : outcome (list A) := store_at mem (q * i) (v_put V s).
  (** kernel_polynomial.hpp:135-140, 149-154 *)
  Definition w_lane (m : ell S) (x y : list A) (n row : nat) : outcome S :=
    obind (el_get S m row n) (fun e => obind (read x (fst e)) (fun b => obind (read y row) (fun c => Ok (snd e * b + (if n =? 0 then kopp c else c))))).
  Definition w_scalar (m : ell S) (x : list A) (n : nat) (y : list A) (row : nat) : outcome (list A) := obind (w_lane m x y n row) (write y row).
  (** kernel_polynomial.hpp:141-148 *)
  Definition w_register (m : ell S) (x y : list A) (n row : nat) : outcome (list A) :=
    obind (column m n) (fun col =>
    obind (load (flat (map snd col)) (q * row) (q * step)) (fun a =>
    obind (load (map fst col) row step) (fun idx =>
    obind (v_gather V x idx) (fun b =>
    obind (load y (q * row) (q * step)) (fun c =>
    Ok (v_madd V a b (if n =? 0 then r_neg A c else c))))))).
  Definition w_vector (m : ell S) (x : list A) (n : nat) (y : list A) (row : nat) : outcome (list A) :=
    obind (w_register m x y n row) (store_at y (q * row)).
  Definition w_pass (m : ell S) (x : list A) (start stop : nat) (sp : split) (n : nat) (y : list A) : outcome (list A) :=
    obind (ofold (w_scalar m x n) (peel_rows start sp) y) (fun y =>
    obind (ofold (w_vector m x n) (vec_rows step sp) y) (fun y =>
    ofold (w_scalar m x n) (rest_rows step stop sp) y)).
  (** kernel_polynomial.hpp:122-157 *)
  Definition w_spmv (aligned : nat -> bool) (skip : nat) (m : ell S) (start stop : nat) (x y : list A) : outcome (list A) :=
    match split_loop aligned step start stop with
    | None => UB
    | Some sp => ofold (fun y n => w_pass m x start stop sp n y) (seq 0 (el_nnz S m - skip)%nat) y
    end.
  (** kernel_polynomial.hpp:244-255, 270-281 *)
  Definition w_scalar_fused (m : ell S) (x : list A) (n : nat) (s : list A * S * S) (row : nat) : outcome (list A * S * S) :=
    match s with (y, m2, m3) =>
      obind (w_lane m x y n row) (fun r2 =>
      obind (read x row) (fun r1 =>
      obind (write y row r2) (fun y => Ok (y, m2 + v_of_real V (v_square V r1), m3 + kconj r2 * r1))))
    end.
  (** kernel_polynomial.hpp:256-269 *)
  Definition w_vector_fused (m : ell S) (x : list A) (n : nat) (s : list A * list A * list A) (row : nat) : outcome (list A * list A * list A) :=
    match s with (y, m2, m3) =>
      obind (w_register m x y n row) (fun r2 =>
      obind (load x (q * row) (q * step)) (fun r1 =>
      obind (store_at y (q * row) r2) (fun y => Ok (y, lift2 A kadd m2 (lift2 A kmul r1 r1), v_cmadd V r2 r1 m3))))
    end.
  (** kernel_polynomial.hpp:220-285 *)
  Definition w_diag (aligned : nat -> bool) (m : ell S) (start stop : nat) (x y : list A) (m2 m3 : S) : outcome (list A * S * S) :=
    match split_loop aligned step start stop with
    | None => UB
    | Some sp =>
        obind (w_spmv aligned 1 m start stop x y) (fun y =>
        match el_nnz S m with
        | 0 => UB
        | Datatypes.S n =>
            obind (ofold (w_scalar_fused m x n) (peel_rows start sp) (y, m2, m3)) (fun s =>
            match s with (y, m2, m3) =>
              obind (ofold (w_vector_fused m x n) (vec_rows step sp) (y, repeat k0 (q * step), repeat k0 (q * step))) (fun s =>
              match s with (y, v2, v3) =>
                obind (ofold (w_scalar_fused m x n) (rest_rows step stop sp) (y, m2, m3)) (fun s =>
                match s with (y, m2, m3) => Ok (y, m2 + v_of_real V (total A v2), m3 + v_total V v3) end)
              end)
            end)
        end)
    end.

  (** ** A batch of vectors, one per lane: [x] and [y] have [step] columns, stored row by row *)
  (** kernel_polynomial.hpp:173-179 *)
  Definition b_register (m : ell S) (x y : list A) (n row : nat) : outcome (list A) :=
    obind (el_get S m row n) (fun e =>
    obind (load x (q * (fst e * step)) (q * step)) (fun b =>
    obind (load y (q * (row * step)) (q * step)) (fun c =>
    Ok (v_madd V (v_splat V (snd e)) b (if n =? 0 then r_neg A c else c))))).
  Definition b_step (m : ell S) (x : list A) (n : nat) (y : list A) (row : nat) : outcome (list A) :=
    obind (b_register m x y n row) (store_at y (q * (row * step))).
  (** kernel_polynomial.hpp:160-183 *)
  Definition b_spmv (skip : nat) (m : ell S) (start stop : nat) (x y : list A) : outcome (list A) :=
    ofold (fun y n => ofold (b_step m x n) (seq start (stop - start)%nat) y) (seq 0 (el_nnz S m - skip)%nat) y.
  (** kernel_polynomial.hpp:306-318 *)
  Definition b_fused (m : ell S) (x : list A) (n : nat) (s : list A * list A * list A) (row : nat) : outcome (list A * list A * list A) :=
    match s with (y, m2, m3) =>
      obind (b_register m x y n row) (fun r2 =>
      obind (load x (q * (row * step)) (q * step)) (fun r1 =>
      obind (store_at y (q * (row * step)) r2) (fun y => Ok (y, lift2 A kadd m2 (lift2 A kmul r1 r1), v_cmadd V r2 r1 m3))))
    end.
  (** kernel_polynomial.hpp:287-322; [m2] and [m3] are arrays of [step] scalars *)
  Definition b_diag (m : ell S) (start stop : nat) (x y m2 m3 : list A) : outcome (list A * list A * list A) :=
    obind (b_spmv 1 m start stop x y) (fun y =>
    match el_nnz S m with
    | 0 => UB
    | Datatypes.S n =>
        obind (ofold (b_fused m x n) (seq start (stop - start)%nat) (y, repeat k0 (q * step), repeat k0 (q * step))) (fun s =>
        match s with (y, v2, v3) => Ok (y, lift2 A kadd m2 (v_fold V v2), lift2 A kadd m3 v3) end)
    end).
  (** The kernels of one vector in the moment loops. *)
  Fixpoint unflat (n : nat) (mem : list A) : list S := match n with 0 => [] | Datatypes.S n => v_get V (firstn q mem) :: unflat n (skipn q mem) end.
  Definition w_kernel (half : S) (aligned : nat -> bool) (m : csr S) : kernel S :=
    match csr_to_ell S m with
    | Ok e =>
        let N := length (el_rows S e) in
        Kernel N (fun s t x y => omap (unflat N) (w_spmv aligned 0 e s t (flat x) (flat y)))
                 (fun s t x y m2 m3 => omap (fun r => match r with (y, m2, m3) => (unflat N y, m2, m3) end) (w_diag aligned e s t (flat x) (flat y) m2 m3))
                 (ell_make_r1 S half e)
    | _ => fail_kernel S
    end.
End Kernels.

(** ** Addresses *)
(** traits.hpp:107-114: [while (size % step != 0) ++size] *)
Fixpoint round_up (fuel step size : nat) : option nat :=
  if size mod step =? 0 then Some size else match fuel with 0 => None | S f => round_up f step (S size) end.
Definition aligned_size (scalar_bytes size : nat) : option nat := let step := 32 / scalar_bytes in round_up step step size.
(** Byte address of element [(row, n)] of a column-major array: ellmatrix.hpp:29-30. *)
Definition element_address (base scalar_bytes stride row n : nat) : nat := base + (n * stride + row) * scalar_bytes.
(** simd.hpp:74-77 for [y] *)
Definition is_aligned (base scalar_bytes : nat) (pos : nat) : bool := (base + pos * scalar_bytes) mod 32 =? 0.
