(* The plots of eigenvalues.

   Mirrors pybinding/results.py:608-691 (Eigenvalues): plot, plot_heatmap and the lines and numbers of _decorate_plot.

   Numbers are real.  A probability that was not given is an array whose only element is None, which counts as zero: here the
   empty list.  [sort] stands for argsort, which does not promise the order of equal elements.  Of the options for the
   dots only colours [c] and sizes [s] are modelled; an option is one value for all dots or an array with one value for each
   (matplotlib raises an exception for arrays of another length).  Axes and labels of axes are left out. *)
From Coq Require Import String.
From Verif Require Import Base Scalar Rle RSum Cplx SolverPost.
From Coq Require Import Reals List.
Local Open Scope R_scope.
Local Open Scope list_scope.

Inductive colour := Named (name : string) | Mapped (value : R).
Record dot := Dot { d_state : nat; d_energy : R; d_colour : colour; d_size : R }.
Inductive per (A : Type) := One (x : A) | Each (l : list A).
Arguments One {A}. Arguments Each {A}.

(** [plt.scatter(x, y, c=c, s=s)] *)
Definition spread {A} (n : nat) (p : per A) : outcome (list A) :=
  match p with One x => Ok (repeat x n) | Each l => if Nat.eqb (length l) n then Ok l else Throw end.
Fixpoint zip (xs : list nat) (ys : list R) (cs : list colour) (ss : list R) : list dot :=
  match xs, ys, cs, ss with
  | x :: xs, y :: ys, c :: cs, s :: ss => Dot x y c s :: zip xs ys cs ss
  | _, _, _, _ => []
  end.
Definition scatter (xs : list nat) (ys : list R) (c : per colour) (s : per R) : outcome (list dot) :=
  obind (spread (length xs) c) (fun cs => omap (zip xs ys cs) (spread (length xs) s)).
(** misc.py:24-39 for one name *)
Definition default {A} (user : option A) (d : A) : A := match user with Some x => x | None => d end.

(** results.py:648-661; the indices are those of results.py:621-623 *)
Definition plot_values (vals : list R) (c : option (per colour)) (s : option (per R)) : outcome (list dot) :=
  scatter (seq 0 (length vals)) vals (default c (One (Named "#377ec8"%string))) (default s (One 15)).

(** [v[idx]]; an index past the end raises an IndexError *)
Fixpoint pick {A} (v : list A) (idx : list nat) : outcome (list A) :=
  match idx with
  | [] => Ok []
  | i :: r => match nth_error v i with Some x => omap (cons x) (pick v r) | None => Throw end
  end.
Definition zero (p : R) : bool := if Req_EM_T p 0 then true else false.
Definition maximum (l : list R) : R := match l with [] => 0 | x :: r => fold_left Rmax r x end.

(** results.py:663-691: the dots and the result *)
Definition plot_heatmap (sort : list R -> list nat) (vals prob : list R) (size : R * R) (c : option (per colour)) (s : option (per R)) :
  outcome (list dot * option R) :=
  if forallb zero prob then omap (fun ds => (ds, None)) (plot_values vals c s)
  else
    let idx := sort prob in
    obind (pick (seq 0 (length vals)) idx) (fun indices =>
    obind (pick vals idx) (fun energy =>
    obind (pick prob idx) (fun probability =>
    let sizes := map (fun p => fst size + snd size * p / maximum probability) probability in
    omap (fun ds => (ds, Some (maximum prob)))
         (scatter indices energy (default c (Each (map Mapped probability))) (default s (Each sizes)))))).

(** results.py:627-633: the lines between degenerate states; the tolerance is that of solver.py:307 *)
Definition lines (vals : list R) : list ((nat * R) * (nat * R)) :=
  map (fun g => let a := hd 0%nat g in let b := last g 0%nat in ((a, nth a vals 0), (b, nth b vals 0)))
      (find_degenerate_states vals (/ 100000)).
(** results.py:635-639: text and position of the numbers *)
Definition numbers (vals : list R) : list (nat * (nat * R)) := map (fun ie => (fst ie, ie)) (combine (seq 0 (length vals)) vals).
