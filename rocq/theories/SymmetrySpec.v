(* Independent specifications for the symmetry properties C09 and C10. *)
From Verif Require Import Base Rle Blocks Foundation Scalar Lattice FoundationSpec Symmetry.
Local Open Scope Z_scope.

(** Length of one period in cells: 0 for a direction without translation, at least 1 otherwise. *)
Definition period (p : option Z) : Z := match p with None => 0 | Some n => Z.max 1 n end.

(** A non-zero translation by whole periods. *)
Definition whole_periods (s : sym) (T : idx3) : Prop :=
  T <> zero3 /\ exists k1 k2 k3, T = I3 (k1 * period (sy1 s)) (k2 * period (sy2 s)) (k3 * period (sy3 s)).

(** The cells that form one period: all cells in a direction without translation, otherwise the
    central [period] cells of the block. *)
Definition in_period1 (size : Z) (p : option Z) (x : Z) : Prop :=
  match p with
  | None => 0 <= x < size
  | Some _ => (size - period p) / 2 <= x < (size - period p) / 2 + period p
  end.
Definition in_period (size : idx3) (s : sym) (i : idx3) : Prop :=
  in_period1 (ix size) (sy1 s) (ix i) /\ in_period1 (iy size) (sy2 s) (iy i) /\ in_period1 (iz size) (sy3 s) (iz i).

(** The block holds at least one period. *)
Definition block_holds_period (size : idx3) (s : sym) : Prop :=
  period (sy1 s) <= ix size /\ period (sy2 s) <= iy size /\ period (sy3 s) <= iz size.

(** In a periodic direction either the period is one cell or bonds reach at most one cell. *)
Definition short1 (p : option Z) (r : Z) : Prop := match p with None => True | Some _ => period p = 1 \/ -1 <= r <= 1 end.
Definition short_range (s : sym) (r : idx3) : Prop := short1 (sy1 s) (ix r) /\ short1 (sy2 s) (iy r) /\ short1 (sy3 s) (iz r).

(** [(p, q)] is the hopping that term [t] makes from the image of valid site [p], translated by
    [T], to valid site [q]. *)
Definition image_bond {P} (size : idx3) (uc : list (usite P)) (flags : list bool) (T : idx3) (t : term) (pq : nat * nat) : Prop :=
  exists i a b u v, cell_of size i /\ cell_of size (shifted_cell (shifted_cell i T) (t_rel t)) /\
    nth_error uc a = Some u /\ u_uid u = t_from t /\ nth_error uc b = Some v /\ u_uid v = t_to t /\
    flagged size flags (i, a) = true /\ flagged size flags (shifted_cell (shifted_cell i T) (t_rel t), b) = true /\
    pq = (number flags (place size i a), number flags (place size (shifted_cell (shifted_cell i T) (t_rel t)) b)).
