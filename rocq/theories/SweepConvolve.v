(* Model of Sweep._convolved, pybinding/results.py:927-959, over the real numbers. *)
From Coq Require Import Reals Lra.
From Verif Require Import Base.
Local Open Scope nat_scope.

Definition rsum (l : list R) : R := fold_right Rplus 0%R l.

(** results.py:941-943: the weights *)
Definition gauss (sigma v0 v : R) : R := exp (- / 2 * ((v - v0) / sigma) ^ 2).
Definition raw_weights (sigma : R) (v : list R) : list R := map (gauss sigma (nth (length v / 2) v 0%R)) v.
Definition weights (sigma : R) (v : list R) : list R :=
  let g := raw_weights sigma v in map (fun x => (x / rsum g)%R) g.

(** results.py:945-946: [data0[extend::-1]] has the elements extend, ..., 0 and [data0[:-extend:-1]] the last
    [extend - 1] elements, backwards; a shorter array gives what it has *)
Definition extended (extend : nat) (data : list R) : list R :=
  rev (firstn (S extend) data) ++ data ++ firstn (extend - 1) (rev data).

(** [np.convolve(a, w, 'full')] at [k], with zeros outside *)
Definition full_at (a w : list R) (k : nat) : R :=
  rsum (map (fun m => (nth m w 0 * (if (m <=? k)%nat then nth (k - m) a 0 else 0))%R) (seq 0 (length w))).

(** [np.convolve(a, w, 'same')]: the central part, as long as the longer of the two *)
Definition same (a w : list R) : list R :=
  map (fun k => full_at a w (k + (Nat.min (length a) (length w) - 1) / 2)) (seq 0 (Nat.max (length a) (length w))).

(** [data1[extend:-extend]] *)
Definition inner (extend : nat) (l : list R) : list R := skipn extend (firstn (length l - extend) l).

(** results.py:940-949 *)
Definition convolve (sigma : R) (v data0 : list R) : list R := inner 10 (same (extended 10 data0) (weights sigma v)).

(** results.py:954 [data[:, i] = ...]: numpy needs as many values as there are rows, or a single one for all *)
Definition assign (n : nat) (l : list R) : outcome (list R) :=
  if length l =? n then Ok l else if length l =? 1 then Ok (repeat (nth 0 l 0%R) n) else Throw.

Definition convolved_column (sigma : R) (v data0 : list R) : outcome (list R) :=
  assign (length data0) (convolve sigma v data0).
