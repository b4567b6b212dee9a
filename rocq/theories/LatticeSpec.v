(* Independent specifications for the lattice properties C01-C04. *)
From Verif Require Import Base Rle Blocks Foundation Scalar Lattice.

(** A bond: the pair of sublattices joined, with the relative cell; reversing the direction
    gives the same physical bond. *)
Definition reversed (t : term) : term :=
  Term (I3 (- ix (t_rel t)) (- iy (t_rel t)) (- iz (t_rel t))) (t_to t) (t_from t).
Definition same_bond (a b : term) : Prop := a = b \/ a = reversed b.

(** Two entries at different places of a list never satisfy [P]. *)
Definition pairwise {A} (P : A -> A -> Prop) (l : list A) : Prop :=
  forall i j a b, i <> j -> nth_error l i = Some a -> nth_error l j = Some b -> P a b.

(** The unit cell lists [t] (of family [f]): forward on its source, reversed on its destination. *)
Definition is_site_of {Q} (uc : list (usite Q)) (i uid : nat) : Prop :=
  exists u, nth_error uc i = Some u /\ u_uid u = uid.

(** Number of entries (rel, to) on sublattice [a] that reach sublattice [b] of cell [rel]. *)
Definition listed {Q} (uc : list (usite Q)) (a b : nat) (rel : idx3) : nat :=
  match nth_error uc a with
  | Some u => length (filter (fun h => eqb3 (h_rel h) rel && (h_to h =? b)) (u_hops u))
  | None => 0
  end.

(** Unique id of the sublattice stored at place [i] of the unit cell. *)
Definition uid_at {Q} (uc : list (usite Q)) (i : nat) : option nat := option_map u_uid (nth_error uc i).

(** All (family id, term) pairs of a list of families. *)
Definition tagged_terms {R} (fams : list (family R)) : list (nat * term) :=
  flat_map (fun f => map (fun t => (fm_id f, t)) (fm_terms f)) fams.

Definition opposite (r : idx3) : idx3 := I3 (- ix r) (- iy r) (- iz r).

(** A later sublattice has more orbitals, or as many and a larger alias group, or the same
    group and was defined later. *)
Definition cell_before {Q} (a b : usite Q) : Prop :=
  u_norb a < u_norb b \/
  (u_norb a = u_norb b /\ (u_alias a < u_alias b \/ (u_alias a = u_alias b /\ u_uid a < u_uid b))).

(** Sublattices that are not aliases. *)
Definition primary {R P} (s : sublattice R P) : Prop := sb_alias s = sb_uid s.
