(* Smoothing and clipping of data on sites.

   Mirrors pybinding/results.py:313-328 (SpatialMap.clipped, SpatialMap.convolve).

   Numbers are real; [None] is the result of the division zero by zero (nan).  [store] is what happens to a number that is
   written into the array of results, which has the type of the data ([empty_like]): nothing for real numbers, the part
   after the point is cut off for integers. *)
From Verif Require Import Base.
From Coq Require Import Reals List.
Local Open Scope R_scope.

Definition trunc (x : R) : R := if Rle_dec 0 x then IZR (Int_part x) else - IZR (Int_part (- x)).
Definition total (l : list R) : R := fold_right Rplus 0 l.

Section Smooth.
  Variable store : R -> R.
  (** results.py:320 *)
  Definition radius (p : R * R) : R := sqrt (fst p ^ 2 + snd p ^ 2).

  (** results.py:324-326 *)
  Definition weight (sigma ri rj : R) : R := exp (- (1 / 2) * ((ri - rj) / sigma) ^ 2).
  Definition close (sigma ri rj : R) : bool := if Rlt_dec (Rabs (rj - ri)) sigma then true else false.
  Definition smooth_at (sigma : R) (r data : list R) (i : nat) : option R :=
    let ri := nth i r 0 in
    let idx := filter (fun j => close sigma ri (nth j r 0)) (seq 0 (length r)) in
    let sum := store (total (map (fun j => nth j data 0 * weight sigma ri (nth j r 0)) idx)) in
    let norm := total (map (fun j => weight sigma ri (nth j r 0)) idx) in
    if Req_EM_T norm 0 then None else Some (store (sum / norm)).
  (** results.py:317-328; the index of booleans must have the length of the data *)
  Definition convolve (sigma : R) (sites : list (R * R)) (data : list R) : outcome (list (option R)) :=
    let r := map radius sites in
    match data with
    | [] => Ok []
    | _ => if Nat.eqb (length data) (length sites) then Ok (map (smooth_at sigma r data) (seq 0 (length data))) else Throw
    end.
End Smooth.
Definition floats (x : R) : R := x.

(** results.py:313-315: np.clip *)
Definition clipped (v_min v_max : R) (data : list R) : list R := map (fun d => Rmin (Rmax d v_min) v_max) data.
