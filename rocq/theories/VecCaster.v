(* Fixed-size vectors from NumPy arrays.

   Mirrors cppmodule/include/cast.hpp:21-56 (static_vec_caster), used for positions (3 floats) and cell indices (3 ints).

   An array is what array_t<Scalar>::ensure returns: elements of the right type at a base address, their distance in bytes
   may be any number.  Memory is a function from addresses to the scalar stored there.  Addresses are 64 bit
   words and their arithmetic wraps around (formally undefined in C++, and what the compilers in use do).  The conversion of
   other element types by NumPy is not modelled. *)
From Verif Require Import Base.
From Coq Require Import ZArith.
Local Open Scope Z_scope.

Definition two64 : Z := 2 ^ 64.
(** static_cast to int and to Eigen::Index *)
Definition to_int (x : Z) : Z := let y := x mod 2 ^ 32 in if y <? 2 ^ 31 then y else y - 2 ^ 32.
Definition to_index (x : Z) : Z := let y := x mod two64 in if y <? 2 ^ 63 then y else y - two64.

Record ndarray := NdArray { nd_ndim : nat; nd_size : Z; nd_base : Z; nd_stride : Z }.

Section Caster.
  Variable S : Type.
  Variable zero : S.
  Variable sizeof : Z.
  Variable dim : nat.
  Variable mem : Z -> S.
  (** cast.hpp:28-46; [None]: not accepted.  strides()[0] is signed and sizeof is not: line 42 divides as unsigned. *)
  Definition load (a : ndarray) : outcome (option (list S)) :=
    if (1 <? nd_ndim a)%nat then Ok None
    else
      let value := repeat zero dim in
      if (nd_ndim a =? 0)%nat then Ok (Some (upd value 0 (mem (nd_base a))))
      else
        let size := to_int (nd_size a) in
        if Z.of_nat dim <? size then Ok None
        else if size <? 0 then UB
        else
          let stride := to_index ((nd_stride a mod two64) / sizeof) in
          Ok (Some (fold_left (fun v k => upd v k (mem ((nd_base a + sizeof * (Z.of_nat k * stride)) mod two64))) (seq 0 (Z.to_nat size)) value)).
  (** lines 48-50: a new array of all components *)
  Definition cast (base : Z) : ndarray := NdArray 1 (Z.of_nat dim) base sizeof.
End Caster.
