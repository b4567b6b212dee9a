(* Type-erased array references, their dispatch and their way to numpy.

   Mirrors cppcore/include/numeric/arrayref.hpp (Tag, BasicArrayRef, VariantArrayConstRef, arrayref, try_match,
   try_match2, match, match2sp), detail/typelist.hpp:10-61 (Concat, Combinations, Filter), numeric/dense.hpp:227-311
   (MakeContainer, arrayref), detail/strategy.hpp:22-45 (MakeStrategy), src/solver/Solver.cpp:78-97,
   include/solver/FEAST.hpp:63-70 and cppmodule/include/cast.hpp:58-100 (arrayref_caster).

   A block of memory knows the type its cells were written with; reading it with another type or outside of it
   is UB.  [PyArray_NewFromDescr] without strides fills them in row major order, or in column major order with
   the Fortran flag.  Simplifications: cells are abstract values; sizes do not overflow. *)
From Verif Require Import Base.

(** Types with a tag: arrayref.hpp:14-41.  [Int signed bytes] stands for the integer types of that size (of one
    and two bytes: int8_t, int16_t and their unsigned versions only). *)
Inductive ctype := Float | CFloat | Double | CDouble | Boolean | Int (signed : bool) (bytes : nat).
Inductive tag := f32 | cf32 | f64 | cf64 | b | i8 | i16 | i32 | i64 | u8 | u16 | u32 | u64.
(** None: rejected at compile time *)
Definition get_tag (t : ctype) : option tag :=
  match t with
  | Float => Some f32 | CFloat => Some cf32 | Double => Some f64 | CDouble => Some cf64 | Boolean => Some b
  | Int true 1 => Some i8 | Int true 2 => Some i16 | Int true 4 => Some i32 | Int true 8 => Some i64
  | Int false 1 => Some u8 | Int false 2 => Some u16 | Int false 4 => Some u32 | Int false 8 => Some u64
  | Int _ _ => None
  end.
Definition tag_eqb (s t : tag) : bool :=
  match s, t with
  | f32, f32 | cf32, cf32 | f64, f64 | cf64, cf64 | b, b | i8, i8 | i16, i16 | i32, i32 | i64, i64 | u8, u8 | u16, u16 | u32, u32 | u64, u64 => true
  | _, _ => false
  end.
Definition ctype_eqb (s t : ctype) : bool :=
  match s, t with
  | Float, Float | CFloat, CFloat | Double, Double | CDouble, CDouble | Boolean, Boolean => true
  | Int x m, Int y n => Bool.eqb x y && (m =? n)
  | _, _ => false
  end.
(** traits.hpp:35 [get_real_t] *)
Definition get_real (t : ctype) : ctype := match t with CFloat => Float | CDouble => Double | t => t end.

Section Arrays.
  Variable A : Type.
  Record buffer := Buffer { bu_type : ctype; bu_cells : list A }.
  Definition read (t : ctype) (m : buffer) (i : nat) : outcome A := if ctype_eqb t (bu_type m) then aget (bu_cells m) i else UB.

  (** ** arrayref.hpp:43-81: [shape] has three numbers *)
  Record ref := Ref { r_data : buffer; r_tag : tag; r_ndim : nat; r_row_major : bool; r_shape : nat * nat * nat }.
  Definition size (r : ref) : nat :=
    let '(x, y, z) := r_shape r in match r_ndim r with 0 => 1 | 1 => x | 2 => x * y | _ => x * y * z end.
  Definition make_ref (m : buffer) (ndim : nat) (row_major : bool) (shape : nat * nat * nat) : option ref :=
    option_map (fun t => Ref m t ndim row_major shape) (get_tag (bu_type m)).
  (** arrayref.hpp:122-138: pointer and sizes *)
  Definition arrayref1 (m : buffer) (x : nat) : option ref := make_ref m 1 true (x, 0, 0).
  Definition arrayref3 (m : buffer) (x y z : nat) : option ref := make_ref m 3 true (x, y, z).
  (** dense.hpp:282-300: an Eigen object; vectors count as row or column major as Eigen does *)
  Inductive shape := Vector (n : nat) | Matrix (rows cols : nat).
  Record dense := Dense { d_data : buffer; d_shape : shape; d_row_major : bool }.
  Definition arrayref_dense (d : dense) : option ref :=
    match d_shape d with
    | Vector n => make_ref (d_data d) 1 (d_row_major d) (n, 0, 0)
    | Matrix r c => make_ref (d_data d) 2 (d_row_major d) (r, c, 0)
    end.
  (** dense.hpp:302-311: a std::vector.  The call for a vector which can be changed passes
      [1, true, size] to the overload for three sizes. *)
  Definition arrayref_vector (is_const : bool) (m : buffer) : option ref :=
    let n := length (bu_cells m) in if is_const then arrayref1 m n else arrayref3 m 1 1 n.

  (** An element of an Eigen object, seen with a type. *)
  Definition offset (row_major : bool) (rows cols i j : nat) : nat := if row_major then i * cols + j else j * rows + i.
  Definition elem1 (t : ctype) (d : dense) (i : nat) : outcome A := match d_shape d with Vector n => if i <? n then read t (d_data d) i else UB | Matrix _ _ => UB end.
  Definition elem2 (t : ctype) (d : dense) (i j : nat) : outcome A :=
    match d_shape d with
    | Vector _ => UB
    | Matrix r c => if (i <? r) && (j <? c) then read t (d_data d) (offset (d_row_major d) r c i j) else UB
    end.

  (** ** Dispatch *)
  (** arrayref.hpp:88-120: a reference limited to some types *)
  Definition is_type (g : tag) (t : ctype) : bool := match get_tag t with Some g' => tag_eqb g g' | None => false end.
  Definition variant (types : list ctype) (r : ref) : outcome ref := if existsb (is_type (r_tag r)) types then Ok r else Throw.
  Definition real_types := [Float; Double].
  Definition complex_types := [Float; Double; CFloat; CDouble].
  (** dense.hpp:227-264: a container of the type on the same memory; its storage order is part of the type *)
  Record map_of := MapOf { mp_type : ctype; mp_dense : dense }.
  Definition make_vector (t : ctype) (r : ref) : map_of := MapOf t (Dense (r_data r) (Vector (size r)) false).
  Definition make_matrix (row_major : bool) (t : ctype) (r : ref) : map_of :=
    MapOf t (Dense (r_data r) (let '(x, y, _) := r_shape r in Matrix x y) row_major).
  (** arrayref.hpp:174-187, 226-231 *)
  Fixpoint try_match {T} (make : ctype -> ref -> map_of) (f : map_of -> outcome T) (r : ref) (types : list ctype) : outcome T :=
    match types with [] => Throw | t :: ts => if is_type (r_tag r) t then f (make t r) else try_match make f r ts end.
  (** typelist.hpp:22-61, arrayref.hpp:215-223 *)
  Fixpoint combinations (l1 l2 : list ctype) : list (ctype * ctype) := match l1 with [] => [] | t :: ts => map (pair t) l2 ++ combinations ts l2 end.
  Definition same_precision (p : ctype * ctype) : bool := ctype_eqb (get_real (fst p)) (get_real (snd p)).
  Fixpoint filter_types (p : ctype * ctype -> bool) (l : list (ctype * ctype)) : list (ctype * ctype) :=
    match l with [] => [] | t :: ts => (if p t then [t] else []) ++ filter_types p ts end.
  (** arrayref.hpp:195-213, 242-250 *)
  Fixpoint try_match2 {T} (make1 make2 : ctype -> ref -> map_of) (f : map_of -> map_of -> outcome T) (r1 r2 : ref) (types : list (ctype * ctype)) : outcome T :=
    match types with
    | [] => Throw
    | (t1, t2) :: ts => if is_type (r_tag r1) t1 && is_type (r_tag r2) t2 then f (make1 t1 r1) (make2 t2 r2) else try_match2 make1 make2 f r1 r2 ts
    end.
  Definition match2sp {T} (make1 make2 : ctype -> ref -> map_of) (types1 types2 : list ctype) (r1 r2 : ref) (f : map_of -> map_of -> outcome T) : outcome T :=
    try_match2 make1 make2 f r1 r2 (filter_types same_precision (combinations types1 types2)).

  (** ** The solver: FEAST.hpp:63-70, Solver.cpp:78-97 *)
  Definition optional {T} (o : option T) : outcome T := match o with Some x => Ok x | None => UB end.
  (** A finished strategy with scalars of type [t]: energies and column major wave functions. *)
  Record strategy := Strategy { st_type : ctype; st_energies : list A; st_states : list A; st_rows : nat }.
  Definition eigenvalues (s : strategy) : outcome ref :=
    obind (optional (arrayref_dense (Dense (Buffer (get_real (st_type s)) (st_energies s)) (Vector (length (st_energies s))) false))) (variant real_types).
  Definition eigenvectors (s : strategy) : outcome ref :=
    obind (optional (arrayref_dense (Dense (Buffer (st_type s) (st_states s)) (Matrix (st_rows s) (length (st_energies s))) false))) (variant complex_types).
  Definition calc_dos {T} (f : map_of -> outcome T) (s : strategy) : outcome T := obind (eigenvalues s) (fun r => try_match make_vector f r real_types).
  Definition calc_spatial_ldos {T} (f : map_of -> map_of -> outcome T) (s : strategy) : outcome T :=
    obind (eigenvalues s) (fun r1 => obind (eigenvectors s) (fun r2 => match2sp make_vector (make_matrix false) real_types complex_types r1 r2 f)).
  (** strategy.hpp:24-45: the first type which is that of the Hamiltonian *)
  Definition make_strategy {T} (make : ctype -> T) (h : ctype) : outcome T :=
    match find (ctype_eqb h) [Float; CFloat; Double; CDouble] with Some t => Ok (make t) | None => Throw end.

  (** ** cast.hpp:65-97: a numpy array *)
  Record ndarray := ND { nd_dtype : tag; nd_shape : list nat; nd_strides : list nat; nd_data : buffer }.
  Definition numpy (r : ref) : ndarray :=
    let '(x, y, z) := r_shape r in
    let dims := firstn (r_ndim r) [x; y; z] in
    let strides := match dims with
      | [] => [] | [_] => [1]
      | [x; y] => if r_row_major r then [y; 1] else [1; x]
      | x :: y :: z :: _ => if r_row_major r then [y * z; z; 1] else [1; x; x * y]
      end in
    ND (r_tag r) dims strides (r_data r).
  (** a[i0, i1, ...] *)
  Fixpoint address (dims strides idx : list nat) : outcome nat :=
    match dims, strides, idx with
    | [], [], [] => Ok 0
    | d :: ds, s :: ss, i :: is_ => if i <? d then omap (fun a => i * s + a) (address ds ss is_) else Throw
    | _, _, _ => Throw
    end.
  Definition dtype_type (g : tag) : ctype :=
    match g with f32 => Float | cf32 => CFloat | f64 => Double | cf64 => CDouble | b => Boolean
    | i8 => Int true 1 | i16 => Int true 2 | i32 => Int true 4 | i64 => Int true 8 | u8 => Int false 1 | u16 => Int false 2 | u32 => Int false 4 | u64 => Int false 8 end.
  Definition item (a : ndarray) (idx : list nat) : outcome A := obind (address (nd_shape a) (nd_strides a) idx) (read (dtype_type (nd_dtype a)) (nd_data a)).
End Arrays.
