(* What "the result of a modifier is stored" means, for single orbitals and for matrices.
   Independent of the code that checks flags, casts and moves axes. *)
From Verif Require Import Base ModifierLayout.
Local Open Scope Z_scope.

Section Spec.
  Context {A : Type}.
  Variable dflt : A.

  (** The index lies within the shape *)
  Definition inside (shape idx : list Z) : Prop := Forall2 (fun d i => 0 <= i < d) shape idx.

  (** Every element that the view shows lies within its buffer; numpy makes no other arrays *)
  Definition valid (mem : list A) (v : view A) : Prop :=
    length (v_strides v) = length (v_shape v) /\
    forall idx, inside (v_shape v) idx -> 0 <= address v idx < Z.of_nat (length (buffer mem v)).

  (** After the call the memory of C++ holds the returned number [r[s]] for site [s] *)
  Definition stored_1d (mem : list A) (v : view A) (ns : Z) (out : list A) : Prop :=
    Z.of_nat (length out) = ns /\
    forall s, 0 <= s < ns -> nth_error out (Z.to_nat s) = Some (elem dflt mem v [s]).

  (** ... and the returned number [r[s, i, j]] for the orbitals [i] and [j] of site [s].
      HamiltonianModifiers.hpp:113-127, 175-190 read the buffer as (norb1, norb2, nsites) in C order. *)
  Definition stored_3d (mem : list A) (v : view A) (ns n1 n2 : Z) (out : list A) : Prop :=
    Z.of_nat (length out) = n1 * n2 * ns /\
    forall s i j, 0 <= s < ns -> 0 <= i < n1 -> 0 <= j < n2 ->
      nth_error out (Z.to_nat ((i * n2 + j) * ns + s)) = Some (elem dflt mem v [s; i; j]).
End Spec.
