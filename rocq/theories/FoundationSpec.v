(* Independent specifications for the foundation properties C05-C08. *)
From Verif Require Import Base Rle Blocks Foundation Scalar Lattice.
Local Open Scope Z_scope.

(** A block has at least one cell in every direction. *)
Definition positive_block (size : idx3) : Prop := 0 < ix size /\ 0 < iy size /\ 0 < iz size.

(** [i] is a cell of the block. *)
Definition cell_of (size i : idx3) : Prop :=
  0 <= ix i < ix size /\ 0 <= iy i < iy size /\ 0 <= iz i < iz size.

(** Array index of the site of sublattice number [a] in cell [i]: x fastest, then y, z and sublattice. *)
Definition place (size i : idx3) (a : nat) : nat :=
  Z.to_nat (ix i + ix size * (iy i + iy size * (iz i + iz size * Z.of_nat a))).

(** Number of sites in the block. *)
Definition num_block_sites (size : idx3) (nsub : nat) : nat := Z.to_nat (ix size * iy size * iz size) * nsub.

(** Strictly increasing sequence. *)
Definition strictly_increasing (l : list Z) : Prop :=
  forall i j a b, (i < j)%nat -> nth_error l i = Some a -> nth_error l j = Some b -> a < b.

(** Cells selected by a slice after replacing an open end by the block size. *)
Definition selected (size : idx3) (r : slice3) (i : idx3) : Prop :=
  let within lo hi n x := lo <= x < (if hi <? 0 then n else hi) in
  within (sl_start (slx r)) (sl_end (slx r)) (ix size) (ix i) /\
  within (sl_start (sly r)) (sl_end (sly r)) (iy size) (iy i) /\
  within (sl_start (slz r)) (sl_end (slz r)) (iz size) (iz i).

(** The selection lies inside the block. *)
Definition slice_inside (size : idx3) (r : slice3) : Prop :=
  0 <= sl_start (slx r) /\ sl_end (slx r) <= ix size /\
  0 <= sl_start (sly r) /\ sl_end (sly r) <= iy size /\
  0 <= sl_start (slz r) /\ sl_end (slz r) <= iz size.

(** Sites as (cell, sublattice number) and their neighbours inside the block. *)
Definition bsite : Type := idx3 * nat.
Definition bsite_in {P} (size : idx3) (uc : list (usite P)) (s : bsite) : Prop :=
  cell_of size (fst s) /\ (snd s < length uc)%nat.

Definition in_cells (size i : idx3) : bool :=
  (0 <=? ix i) && (ix i <? ix size) && (0 <=? iy i) && (iy i <? iy size) && (0 <=? iz i) && (iz i <? iz size).

Definition shifted_cell (i r : idx3) : idx3 := I3 (ix i + ix r) (iy i + iy r) (iz i + iz r).

Definition block_neighbours {P} (size : idx3) (uc : list (usite P)) (s : bsite) : list bsite :=
  match nth_error uc (snd s) with
  | Some u => filter (fun t => in_cells size (fst t)) (map (fun h => (shifted_cell (fst s) (h_rel h), h_to h)) (u_hops u))
  | None => []
  end.

(** Number of neighbours of [s] in the set [K]. *)
Definition degree_in {P} (size : idx3) (uc : list (usite P)) (K : bsite -> bool) (s : bsite) : nat :=
  length (filter K (block_neighbours size uc s)).

(** Set described by an array of flags. *)
Definition flagged (size : idx3) (flags : list bool) (s : bsite) : bool := nth (place size (fst s) (snd s)) flags false.

(** [K] is contained in [L] (on the block). *)
Definition subset_of {P} (size : idx3) (uc : list (usite P)) (K L : bsite -> bool) : Prop :=
  forall s, bsite_in size uc s -> K s = true -> L s = true.

(** Every site of [K] keeps at least [m] neighbours in [K]. *)
Definition all_keep {P} (size : idx3) (uc : list (usite P)) (m : Z) (K : bsite -> bool) : Prop :=
  forall s, bsite_in size uc s -> K s = true -> m <= Z.of_nat (degree_in size uc K s).

(** The largest subset of [L] in which every site keeps [m] neighbours. *)
Definition is_core {P} (size : idx3) (uc : list (usite P)) (m : Z) (L K : bsite -> bool) : Prop :=
  subset_of size uc K L /\ all_keep size uc m K /\
  (forall T, subset_of size uc T L -> all_keep size uc m T -> subset_of size uc T K).

(** Weaker requirement met by the code: a site may also stay when none of its neighbours was lost. *)
Definition keep_or_untouched {P} (size : idx3) (uc : list (usite P)) (m : Z) (K : bsite -> bool) : Prop :=
  forall s, bsite_in size uc s -> K s = true ->
    m <= Z.of_nat (degree_in size uc K s) \/ degree_in size uc K s = length (block_neighbours size uc s).

(** Final number of the site at array index [v]: how many valid sites come before it. *)
Definition number (flags : list bool) (v : nat) : nat := length (filter (fun k => nth k flags false) (seq 0 v)).

(** [(p, q)] is the hopping that lattice term [t] makes from some cell of the block. *)
Definition bond_of {P} (size : idx3) (uc : list (usite P)) (flags : list bool) (t : term) (pq : nat * nat) : Prop :=
  exists i a b u v, cell_of size i /\ cell_of size (shifted_cell i (t_rel t)) /\
    nth_error uc a = Some u /\ u_uid u = t_from t /\ nth_error uc b = Some v /\ u_uid v = t_to t /\
    flagged size flags (i, a) = true /\ flagged size flags (shifted_cell i (t_rel t), b) = true /\
    pq = (number flags (place size i a), number flags (place size (shifted_cell i (t_rel t)) b)).
