(* Independent specifications for the table properties C12-C16: plain lists of labels,
   surviving sites, incidence counts.  No model function is used for the plain side. *)
From Verif Require Import Base Rle Blocks.

(** C12: a history of table operations and its meaning on the plain list of
    (sublattice id, orbital count) labels. *)
Inductive table_op := AddSites (id count : nat) | KeepOnly (keep : list bool).

(** Plain meaning; [None] when a mask does not have one flag per site. *)
Fixpoint plain_run (norb : nat -> nat) (ops : list table_op) (l : list (nat * nat)) : option (list (nat * nat)) :=
  match ops with
  | [] => Some l
  | AddSites id c :: t => plain_run norb t (l ++ repeat (id, norb id) c)
  | KeepOnly keep :: t =>
      if length keep =? length l then plain_run norb t (mask keep l) else None
  end.

(** The same history run on the compressed table. *)
Fixpoint table_run (norb : nat -> nat) (ops : list table_op) (d : rle) : outcome rle :=
  match ops with
  | [] => Ok d
  | AddSites id c :: t => table_run norb t (rle_add d id (norb id) c)
  | KeepOnly keep :: t => obind (rle_filter keep d) (table_run norb t)
  end.

(** C13: old indices of the surviving sites in order; the new site [k] is the old site
    [nth k (survivors keep)]. *)
Definition survivors (keep : list bool) : list nat :=
  filter (fun i => nth i keep false) (seq 0 (length keep)).

(** The hoppings [b'] of the reduced system are exactly the hoppings of [b] between two
    surviving sites, on the same physical sites. *)
Definition follows_sites (keep : list bool) (b b' : list (nat * nat)) : Prop :=
  forall i j, In (i, j) b' <->
    exists i0 j0, In (i0, j0) b /\ nth_error (survivors keep) i = Some i0 /\
                  nth_error (survivors keep) j = Some j0.

Definition in_range_pairs (n : nat) (l : list (nat * nat)) : Prop :=
  Forall (fun c => fst c < n /\ snd c < n) l.

Definition in_range_table (h : hblocks) : Prop := in_range_pairs (hb_n h) (concat (hb_blocks h)).

(** A consistent system: one flag and one label per site, all indices in range. *)
Definition wf_sys {P S} (s : sysdata P S) : Prop :=
  length (sd_valid s) = length (sd_pos s) /\
  rle_size (sd_subs s) = length (sd_pos s) /\
  in_range_pairs (length (sd_pos s)) (concat (hb_blocks (sd_hops s))) /\
  Forall (fun b => in_range_pairs (length (sd_pos s)) (concat (hb_blocks (fst b)))) (sd_bounds s).

(** C15: how often site [i] occurs as an end of a stored hopping. *)
Definition incident (l : list (nat * nat)) (i : nat) : nat :=
  length (filter (fun c => fst c =? i) l) + length (filter (fun c => snd c =? i) l).

(** C16: one (id, orbital count) entry per site, in site order. *)
Definition site_list (d : rle) : list (nat * nat) :=
  flat_map (fun e => repeat (e_id e, e_norb e) (e_num e)) d.

(** C14: the generator asked for a bond between [i] and [j] (in either order). *)
Definition requested (rows cols : list nat) (i j : nat) : Prop :=
  In (i, j) (combine rows cols) \/ In (j, i) (combine rows cols).
