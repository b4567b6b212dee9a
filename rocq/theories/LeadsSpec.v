(* Independent specification of lead attachment (C35, C40-C42): columns of sites along the lead. *)
From Verif Require Import Base Rle Blocks Foundation FoundationSpec Leads.
Local Open Scope Z_scope.

(** Cell [i] with its component on axis [a] replaced by [k]. *)
Definition put3 (a : nat) (k : Z) (i : idx3) : idx3 :=
  match a with 0%nat => I3 k (iy i) (iz i) | 1%nat => I3 (ix i) k (iz i) | _ => I3 (ix i) (iy i) k end.

Section Spec.
  Context {P : Type}.
  Variable size lower : idx3.
  Variable uc : list (usite P).
  Variable fpos : list P.
  Variable l : lead P.
  Variable inside : P -> bool.           (* the lead shape, as a test on one position *)

  Notation axis := (lead_axis l).
  Definition axis_len : Z := comp3 axis size.

  (** The lead's box relative to the block, both ends included. *)
  Definition box_lo (b : nat) : Z := comp3 b (fst (lead_bounds l)) - comp3 b lower.
  Definition box_hi (b : nat) : Z := comp3 b (snd (lead_bounds l)) - comp3 b lower.

  (** The box overlaps the block on the lead's own axis. *)
  Definition overlaps : Prop := box_lo axis <= box_hi axis /\ box_lo axis < axis_len /\ 0 <= box_hi axis.

  (** Cells beside which the lead runs: inside the box on the two other axes.  A box that ends two or
      more cells below the block is taken to be open above. *)
  Definition beside (i : idx3) : Prop :=
    forall b, (b < 3)%nat -> b <> axis -> box_lo b <= comp3 b i /\ (comp3 b i <= box_hi b \/ box_hi b < -1).

  (** The lead's cross-section: columns whose site in the middle of the box is inside the shape. *)
  Definition centre : Z := (Z.max (box_lo axis) 0 + Z.min (box_hi axis + 1) axis_len) / 2.
  Definition mouth (i : idx3) (a : nat) : Prop :=
    beside i /\ exists p, nth_error fpos (place size (put3 axis centre i) a) = Some p /\ inside p = true.

  (** Distance from the side at which the lead enters the block. *)
  Definition depth (i : idx3) : Z := if lead_sign l <? 0 then comp3 axis i else axis_len - 1 - comp3 axis i.

  (** The lead starts at the first existing site beside it. *)
  Definition starts (valid : list bool) (d : Z) : Prop :=
    (exists i a, cell_of size i /\ (a < length uc)%nat /\ beside i /\ depth i = d /\ flagged size valid (i, a) = true) /\
    (forall i a, cell_of size i -> (a < length uc)%nat -> beside i -> flagged size valid (i, a) = true -> d <= depth i).

  (** Sites to fill: from the start to just before the first existing site of the column. *)
  Definition gap (valid : list bool) (d : Z) (i : idx3) (a : nat) : Prop :=
    mouth i a /\ d <= depth i /\
    forall j, cell_of size j -> put3 axis 0 j = put3 axis 0 i -> d <= depth j <= depth i -> flagged size valid (j, a) = false.

  (** There is a cross-section and each of its columns meets an existing site. *)
  Definition attachable (valid : list bool) : Prop :=
    (exists i a, cell_of size i /\ (a < length uc)%nat /\ mouth i a) /\
    (forall i a, cell_of size i -> (a < length uc)%nat -> mouth i a ->
       exists j, cell_of size j /\ put3 axis 0 j = put3 axis 0 i /\ flagged size valid (j, a) = true).

  (** Contact sites: the cross-section at the start of the lead. *)
  Definition contact (valid : list bool) (i : idx3) (a : nat) : Prop :=
    cell_of size i /\ (a < length uc)%nat /\ mouth i a /\ exists d, starts valid d /\ depth i = d.
End Spec.
