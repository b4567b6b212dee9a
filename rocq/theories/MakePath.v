(* Paths through k-space.  pybinding/results.py *)
From Verif Require Import Base RSum.
From Coq Require Import Reals.
Local Open Scope R_scope.

Definition point := list R.
(** element-wise difference; numpy stretches an array of one element, other different lengths raise.
    results.py:150 *)
Definition minus (a b : point) : outcome point :=
  if (length a =? length b)%nat then Ok (map (fun t => fst t - snd t) (combine a b))
  else if (length b =? 1)%nat then Ok (map (fun x => x - hd 0 b) a)
  else if (length a =? 1)%nat then Ok (map (fun y => hd 0 a - y) b)
  else Throw.
(** [np.linalg.norm] *)
Definition norm (v : point) : R := sqrt (fold_right Rplus 0 (map (fun x => x * x) v)).
(** [int(x // step)]: raises for a zero step (the quotient is not finite).  results.py:150 *)
Definition floor_div (x step : R) : outcome Z := if Req_EM_T step 0 then Throw else Ok (Int_part (x / step)).
(** [np.array([np.linspace(s, e, n, endpoint=False) for s, e in zip(k_start, k_end)]).T]; a negative
    count raises.  results.py:152-153 *)
Definition samples (a b : point) (n : nat) : list point :=
  map (fun t => map (fun se => fst se + INR t * ((snd se - fst se) / INR n)) (combine a b)) (seq 0 n).
(** One turn of the loop: number of steps, rows, and their width.  results.py:149-155 *)
Definition segment (step : R) (a b : point) : outcome (nat * list point * nat) :=
  obind (minus b a) (fun d => obind (floor_div (norm d) step) (fun n =>
  if (n <? 0)%Z then Throw
  else let n := Z.to_nat n in Ok (n, samples a b n, Nat.min (length a) (length b)))).
Definition lasts (l : list nat) : nat := last l 0%nat.
(** results.py:143-158; [np.vstack] raises if the widths differ.  The comparison of shapes in lines
    144-145 runs over [k_points[:1]] only, so it compares the first point with itself. *)
Definition make_path (step : R) (k0 k1 : point) (ks : list point) : outcome (list point * list nat) :=
  let pts := k0 :: k1 :: ks in
  if negb (forallb (fun k => length k =? length k0)%nat (firstn 1 pts)) then Throw
  else
    obind (ofold (fun st ab =>
             obind (segment step (fst ab) (snd ab)) (fun r =>
             let '(rows, idx, ws) := st in let '(n, p, w) := r in
             Ok (rows ++ p, idx ++ [lasts idx + n]%nat, ws ++ [w])))
           (combine (removelast pts) (tl pts)) ([], [0%nat], []))
    (fun st => let '(rows, idx, ws) := st in
       let lastp := last pts [] in
       if forallb (fun w => w =? length lastp)%nat ws then Ok (rows ++ [lastp], idx) else Throw).
