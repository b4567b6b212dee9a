(* Model of pybinding/support/alias.py: names of sublattices and hoppings in Python. *)
From Verif Require Import Base.
From Coq Require Import String Ascii.
Local Open Scope string_scope.

Definition bar : ascii := "|"%char.

(** alias.py:221-223 [SplitName.first]: [split("|")[0]] *)
Fixpoint first (s : string) : string :=
  match s with
  | EmptyString => EmptyString
  | String c t => if Ascii.eqb c bar then EmptyString else String c (first t)
  end.

(** alias.py:225-229 [SplitName.__eq__], [__ne__] *)
Definition split_eq (name other : string) : bool := (name =? other) || (first name =? other).
Definition split_ne (name other : string) : bool := negb (name =? other) && negb (first name =? other).

(** The mapping of names to numbers, a Python dict: names are different *)
Definition mapping := list (string * nat).

(** [other in self.mapping], [self.mapping[other]]: the hash of a [SplitName] is the hash of the whole
    string (alias.py:231-232), so the dict looks up whole names (collisions of hashes aside) *)
Fixpoint lookup (m : mapping) (other : string) : option nat :=
  match m with [] => None | (k, v) :: t => if k =? other then Some v else lookup t other end.

(** alias.py:44-52 [AliasArray._mapped_eq] *)
Definition mapped_eq (m : mapping) (ids : list nat) (other : string) : list bool :=
  match lookup m other with
  | Some v => map (fun i => Nat.eqb i v) ids
  | None => fold_left (fun res kv => if split_eq (fst kv) other
                                     then map (fun rb => orb (fst rb) (snd rb)) (combine res (map (fun i => Nat.eqb i (snd kv)) ids))
                                     else res)
                      m (map (fun _ => false) ids)
  end.

(** alias.py:54-64 [==] and [!=] with a string *)
Definition array_eq := mapped_eq.
Definition array_ne (m : mapping) (ids : list nat) (other : string) : list bool := map negb (mapped_eq m ids other).

(** alias.py:129-197 [AliasIndex] with a [SplitName]: the whole array is of one family,
    modifier.py:43-44 *)
Definition index_eq (name : string) (shape : nat) (other : string) : list bool := repeat (split_eq name other) shape.
Definition index_ne (name : string) (shape : nat) (other : string) : list bool := repeat (split_ne name other) shape.
