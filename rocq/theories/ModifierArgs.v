(* Model of the arguments that a Python modifier function gets (pybinding/modifier.py:24-62
   _process_modifier_args), of numpy's rules for combining arrays of different shapes, and of the
   helper object [sites] (pybinding/support/structure.py:151-176).

   An array is its shape and the element at every index; memory layout is the subject of C79. *)
From Verif Require Import Base.

Section Args.
  Context {A : Type}.
  Record nd := ND { dims : list nat; at_ : list nat -> A }.
  Definition nd_size (a : nd) : nat := fold_right Nat.mul 1 (dims a).

  (** numpy broadcasting: shapes are aligned at the last axis; an axis of length 1 is repeated *)
  Fixpoint bshape_rev (a b : list nat) : option (list nat) :=
    match a, b with
    | [], _ => Some b
    | _, [] => Some a
    | x :: a', y :: b' =>
      match bshape_rev a' b' with
      | None => None
      | Some r => if x =? y then Some (x :: r) else if x =? 1 then Some (y :: r) else if y =? 1 then Some (x :: r) else None
      end
    end.
  Definition bshape (a b : list nat) : option (list nat) := option_map (@rev nat) (bshape_rev (rev a) (rev b)).
  Fixpoint clip_rev (ds is : list nat) : list nat :=
    match ds, is with d :: ds', i :: is' => (if d =? 1 then 0 else i) :: clip_rev ds' is' | _, _ => [] end.
  (** The element of [a] that takes part at index [idx] of the result *)
  Definition bget (a : nd) (idx : list nat) : A := at_ a (rev (clip_rev (rev (dims a)) (rev idx))).
  (** An operator or a ufunc with two arguments *)
  Definition bop (f : A -> A -> A) (a b : nd) : outcome nd :=
    match bshape (dims a) (dims b) with
    | Some d => Ok (ND d (fun idx => f (bget a idx) (bget b idx)))
    | None => Throw (* ValueError: operands could not be broadcast together *)
    end.

  (** [a[mask] = f(a[mask])]: the shape of a boolean index must be that of the leading axes *)
  Definition leading (m a : list nat) : bool := if list_eq_dec Nat.eq_dec m (firstn (length m) a) then true else false.
  Definition mask_set (f : A -> A) (a : nd) (mdims : list nat) (m : list nat -> bool) : outcome nd :=
    if leading mdims (dims a)
    then Ok (ND (dims a) (fun idx => if m (firstn (length mdims) idx) then f (at_ a idx) else at_ a idx))
    else Throw. (* IndexError: boolean index did not match indexed array *)

  (** What C++ hands over: [num] sites or hoppings, the size of one energy matrix, the energies and
      the coordinates (x, y, z of sites, or x1 ... z2 of hoppings) *)
  Record batch := Batch { num : nat; rows : nat; cols : nat; energies : nat -> nat -> nat -> A; coords : nat -> nat -> A }.

  (** HamiltonianModifiers.hpp:133-134, 234-235: one axis for single orbitals, else three *)
  Definition plain_batch (b : batch) : bool := (rows b =? 1) && (cols b =? 1).

  (** modifier.py:29-40: the axis of the sites is first, [shape] and [orbs] *)
  Definition prime_arg (b : batch) : nd :=
    if plain_batch b then ND [num b] (fun idx => energies b (nth 0 idx 0) 0 0)
    else ND [num b; rows b; cols b] (fun idx => energies b (nth 0 idx 0) (nth 1 idx 0) (nth 2 idx 0)).
  Definition site_shape (b : batch) : list nat := if plain_batch b then [num b] else [num b; 1; 1].

  (** modifier.py:42-49 [process]: arrays with one number per site get the shape, in place.  [req]:
      the coordinates that the function asks for; the others keep the shape they came with. *)
  Definition coordinate (b : batch) (req : list nat) (c : nat) : nd :=
    ND (if existsb (Nat.eqb c) req then site_shape b else [num b]) (fun idx => coords b c (nth 0 idx 0)).

  (** modifier.py:55-56 [Sites((x, y, z), sub_id)], structure.py:154-155 [np.atleast_1d(tuple)]:
      the three arrays are stacked, which numpy refuses for different shapes.  By then the
      coordinates that were asked for as well have their new shape. *)
  Definition sites_arg (b : batch) (req : list nat) (c : nat) : outcome nd :=
    let x := coordinate b req 0 in let y := coordinate b req 1 in let z := coordinate b req 2 in
    if list_eq_dec Nat.eq_dec (dims x) (dims y)
    then if list_eq_dec Nat.eq_dec (dims y) (dims z) then Ok (match c with 0 => x | 1 => y | _ => z end) else Throw
    else Throw.

  (** alias.py:195-197 [sub_id.eye] with [orbs] *)
  Variables zero one : A.
  Definition eye (b : batch) : nd :=
    ND [rows b; cols b] (fun idx => if nth 0 idx 0 =? nth 1 idx 0 then one else zero).

  (** Elementwise formulas of a modifier function *)
  Inductive formula :=
  | Val (a : A)
  | Energy
  | Coord (c : nat)
  | SitesCoord (c : nat)
  | Eye
  | Op (f : A -> A -> A) (p q : formula).
  Fixpoint eval (b : batch) (req : list nat) (p : formula) : outcome nd :=
    match p with
    | Val a => Ok (ND [] (fun _ => a))
    | Energy => Ok (prime_arg b)
    | Coord c => if existsb (Nat.eqb c) req then Ok (coordinate b req c) else Throw (* NameError *)
    | SitesCoord c => sites_arg b req c
    | Eye => Ok (eye b)
    | Op f p q => obind (eval b req p) (fun u => obind (eval b req q) (fun v => bop f u v))
    end.

  (** modifier.py:99-100: the result must have as many numbers as the first argument *)
  Definition accepted (b : batch) (r : nd) : bool := nd_size r =? nd_size (prime_arg b).

  (** [energy[sub_id == name] = f(...)] with the lazy array of alias.py:167-176 *)
  Definition select (b : batch) (f : A -> A) (same : bool) : outcome nd := mask_set f (prime_arg b) (site_shape b) (fun _ => same).
End Args.
Arguments nd A : clear implicits. Arguments batch A : clear implicits. Arguments formula A : clear implicits.
