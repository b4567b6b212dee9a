(* Model of how the array returned by a Python modifier function gets into C++ memory:
   pybinding/modifier.py (_process_modifier_args, _sanitize_modifier_result) and
   cppmodule/src/modifiers.cpp (ExtractModifierResult), with numpy's strided arrays.

   An array of numpy is a view of a buffer: offset of the first element, shape, strides (here in
   elements), and whether it owns its buffer.  Values are of any type; the conversion of values
   between float32 and float64 is the identity here (rounding is not modelled). *)
From Verif Require Import Base.
Local Open Scope Z_scope.

Section Layout.
  Context {A : Type}.
  Variable dflt : A.

  (** [v_buf = None]: the view looks at the memory that C++ handed to the modifier
      (cast.hpp:58-100 arrayref_caster: no copy).  [v_same]: dtype of the memory handed out. *)
  Record view := View { v_buf : option (list A); v_off : Z; v_shape : list Z; v_strides : list Z; v_own : bool; v_same : bool }.

  Definition buffer (mem : list A) (v : view) : list A := match v_buf v with Some b => b | None => mem end.
  Definition getv (b : list A) (a : Z) : option A := if a <? 0 then None else nth_error b (Z.to_nat a).
  Fixpoint dotz (i s : list Z) : Z := match i, s with x :: i', y :: s' => x * y + dotz i' s' | _, _ => 0 end.
  Definition address (v : view) (idx : list Z) : Z := v_off v + dotz idx (v_strides v).

  (** The element that Python sees at an index. *)
  Definition elem (mem : list A) (v : view) (idx : list Z) : A :=
    match getv (buffer mem v) (address v idx) with Some x => x | None => dflt end.

  Definition prodz (l : list Z) : Z := fold_right Z.mul 1 l.
  Definition size (v : view) : Z := prodz (v_shape v).

  (** numpy flags C_CONTIGUOUS and F_CONTIGUOUS: axes of length 1 do not matter *)
  Fixpoint c_contig (shape strides : list Z) : bool :=
    match shape, strides with
    | d :: ds, s :: ss => c_contig ds ss && ((d =? 1) || (s =? prodz ds))
    | _, _ => true
    end.
  Definition c_contiguous (v : view) : bool := (size v =? 0) || c_contig (v_shape v) (v_strides v).
  Definition f_contiguous (v : view) : bool := (size v =? 0) || c_contig (rev (v_shape v)) (rev (v_strides v)).

  (** Strides of a new array in C order, in Fortran order *)
  Fixpoint c_strides (shape : list Z) : list Z := match shape with [] => [] | _ :: ds => prodz ds :: c_strides ds end.
  Definition f_strides (shape : list Z) : list Z := rev (c_strides (rev shape)).

  (** numpy, order 'K' (PyArray_NewLikeArray): C order for C contiguous arrays, Fortran order for
      Fortran contiguous ones, else axes sorted by the absolute value of their strides *)
  Definition inner (strides : list Z) (j k : nat) : bool :=
    let sj := Z.abs (nth j strides 0) in let sk := Z.abs (nth k strides 0) in
    (sj <? sk) || ((sj =? sk) && (k <? j)%nat).
  Definition sorted_strides (shape strides : list Z) : list Z :=
    map (fun k => prodz (map (fun j => if inner strides j k then nth j shape 1 else 1) (seq 0 (length shape)))) (seq 0 (length shape)).
  Definition k_strides (v : view) : list Z :=
    if c_contiguous v || (length (v_shape v) <=? 1)%nat then c_strides (v_shape v)
    else if f_contiguous v then f_strides (v_shape v)
    else sorted_strides (v_shape v) (v_strides v).

  (** A new array of the shape of [v] with gapless [strides]: the index at address [a] *)
  Fixpoint decode (shape strides : list Z) (a : Z) : list Z :=
    match shape, strides with d :: ds, s :: ss => (a / s) mod d :: decode ds ss a | _, _ => [] end.
  Definition addresses (n : Z) : list Z := map Z.of_nat (seq 0 (Z.to_nat n)).
  Definition copy_with (mem : list A) (v : view) (strides : list Z) : view :=
    View (Some (map (fun a => elem mem v (decode (v_shape v) strides a)) (addresses (size v)))) 0 (v_shape v) strides true true.

  (** np.moveaxis(r, 0, 2): a view *)
  Definition moveaxis02 (v : view) : view :=
    match v_shape v, v_strides v with
    | [d0; d1; d2], [s0; s1; s2] => View (v_buf v) (v_off v) [d1; d2; d0] [s1; s2; s0] false (v_same v)
    | _, _ => v
    end.

  (** modifier.py:102-111 cast: astype(prime_arg.dtype, copy=False) *)
  Definition cast (mem : list A) (v : view) : view := if v_same v then v else copy_with mem v (k_strides v).

  (** modifier.py:113-118 moveaxis of a new contiguous array, [.copy()] is in C order *)
  Definition moveaxis (mem : list A) (v : view) : view :=
    if (length (v_shape v) =? 3)%nat && v_own v && c_contiguous v
    then let m := moveaxis02 v in copy_with mem m (c_strides (v_shape m)) else v.

  (** modifier.py:87-122 _sanitize_modifier_result for one returned array *)
  Definition sanitize (mem : list A) (v : view) (n : Z) : outcome view :=
    if negb (size v =? n) then Throw else Ok (moveaxis mem (cast mem v)).

  (** [n] elements that lie one after the other from address [off] on; reading past the end of the
      buffer is undefined behaviour *)
  Fixpoint read_raw (b : list A) (off : Z) (n : nat) : outcome (list A) :=
    match n with
    | O => Ok []
    | S m => match getv b off with Some x => omap (cons x) (read_raw b (off + 1) m) | None => UB end
    end.

  (** modifiers.cpp:13-33 ExtractModifierResult: [a.data()] and [a.size()] only, no strides.
      [mem]: the destination, at address 0; its content may have been changed by the function. *)
  Definition extract (mem : list A) (v : view) : outcome (list A) :=
    if negb (size v =? Z.of_nat (length mem)) then Throw
    else match v_buf v with
         | None => if v_off v =? 0 then Ok mem else read_raw mem (v_off v) (length mem)
         | Some b => read_raw b (v_off v) (length mem)
         end.

  (** One call of a modifier that left [mem] behind and returned [v] *)
  Definition take_result (mem : list A) (v : view) : outcome (list A) :=
    obind (sanitize mem v (Z.of_nat (length mem))) (extract mem).

  (** modifier.py:29-40 what the function gets: the memory of shape (norb1, norb2, nsites) in C
      order, seen with the axis of the sites first; a plain array for single orbitals *)
  Definition argument (n1 n2 ns : Z) : view := View None 0 [ns; n1; n2] [1; n2 * ns; ns] false true.
  Definition argument1 (ns : Z) : view := View None 0 [ns] [1] false true.
End Layout.
Arguments view A : clear implicits.
