(* Reference definitions for the kernel polynomial method: what the matrices, walks, slices and
   moments are supposed to be.  Nothing here refers to the loops of Kpm.v. *)
From Verif Require Import Base Scalar.

Section Spec.
  Variable R : scalar.
  Local Open Scope k_scope.

  (** ** Sparse matrices *)
  Definition entries (m : list (list (nat * R))) (i : nat) : list (nat * R) := nth i m [].
  (** Element (i, j) of the matrix: the sum of the stored entries. *)
  Definition coef (m : list (list (nat * R))) (i j : nat) : R :=
    ksum (fun e => if fst e =? j then snd e else k0) (entries m i).
  (** Square, columns in range, at most one entry per position. *)
  Definition wf_csr (size : nat) (m : list (list (nat * R))) : Prop :=
    length m = size
    /\ (forall i e, In e (entries m i) -> fst e < size)
    /\ (forall i, NoDup (map fst (entries m i))).
  (** Stored positions are symmetric (the pattern of a Hermitian matrix). *)
  Definition linked (m : list (list (nat * R))) (i j : nat) : Prop := In j (map fst (entries m i)).
  Definition sym_pattern (m : list (list (nat * R))) : Prop := forall i j, linked m i j -> linked m j i.

  (** Walks along stored entries. *)
  Inductive walk (m : list (list (nat * R))) : nat -> nat -> nat -> Prop :=
  | walk_0 : forall i, walk m 0 i i
  | walk_S : forall n i j k, walk m n i j -> linked m j k -> walk m (S n) i k.
  Definition connected (size : nat) (m : list (list (nat * R))) : Prop :=
    forall i j, i < size -> j < size -> exists n, walk m n i j.
  (** [n] is the length of a shortest walk. *)
  Definition distance (m : list (list (nat * R))) (i j n : nat) : Prop :=
    walk m n i j /\ forall k, walk m k i j -> n <= k.

  (** ** Dense matrices and Chebyshev polynomials *)
  Definition dmat := nat -> nat -> R.
  Definition delta (i j : nat) : R := if i =? j then k1 else k0.
  Definition dmul (N : nat) (A B : dmat) : dmat := fun i j => ksum (fun k => A i k * B k j) (seq 0 N).
  (** [(H - b)/a] *)
  Definition scaled_dense (inv_a b : R) (H : dmat) : dmat := fun i j => inv_a * (H i j - b * delta i j).
  (** T_0 = 1, T_1 = X, T_{n+2} = 2 X T_{n+1} - T_n *)
  Fixpoint cheb (N : nat) (X : dmat) (n : nat) : dmat :=
    match n with
    | 0 => delta
    | S m => match m with
             | 0 => X
             | S p => fun i j => (k1 + k1) * dmul N X (cheb N X m) i j - cheb N X p i j
             end
    end.
  Definition hermitian (N : nat) (X : dmat) : Prop := forall i j, i < N -> j < N -> kconj (X i j) = X j i.
  (** [<u| A |v>] *)
  Definition braket (N : nat) (u : nat -> R) (A : dmat) (v : nat -> R) : R :=
    ksum (fun i => ksum (fun j => kconj (u i) * A i j * v j) (seq 0 N)) (seq 0 N).
  Definition vec (l : list R) (i : nat) : R := nth i l k0.

  (** The moment that belongs at position [n]: moment zero counts half. *)
  Definition halved (half : R) (n : nat) (v : R) : R := match n with 0 => half * v | _ => v end.
End Spec.
Arguments entries {R}. Arguments coef {R}. Arguments wf_csr {R}. Arguments linked {R}. Arguments sym_pattern {R}.
Arguments walk {R}. Arguments connected {R}. Arguments distance {R}.
Arguments delta {R}. Arguments dmul {R}. Arguments scaled_dense {R}. Arguments cheb {R}. Arguments hermitian {R}.
Arguments braket {R}. Arguments vec {R}. Arguments halved {R}.
