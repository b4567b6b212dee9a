(* Model of parameter sweeps: pybinding/parallel.py (parallelize, Factory, ParallelFor, sweep, ndsweep)
   and the result classes of pybinding/results.py (Sweep, NDSweep). *)
From Verif Require Import Base.
From Coq Require Import QArith Qround.
Local Open Scope nat_scope.

(** ** The jobs *)

(** parallel.py:178 [list(itertools.product( *variables))]: the last variable varies fastest *)
Fixpoint product {V} (vars : list (list V)) : list (list V) :=
  match vars with
  | [] => [[]]
  | v :: t => flat_map (fun x => map (cons x) (product t)) v
  end.

(** parallel.py:350-357 [parallelize.decorator].  [params]: names of the parameters of the factory
    function with their defaults; [kwargs]: the given variables.  A parameter without default has the
    default [inspect.Parameter.empty], some value of Python. *)
Section Parallelize.
  Context {V : Type}.
  Definition names := nat.
  Definition find_arg {X} (l : list (names * X)) (n : names) : option X := option_map snd (find (fun e => fst e =? n) l).

  Definition variables (params : list (names * V)) (kwargs : list (names * list V)) : list (list V) :=
    flat_map (fun p => match find_arg kwargs (fst p) with Some v => [v] | None => [] end) params.
  Definition fixtures (params : list (names * V)) (kwargs : list (names * list V)) : list (names * V) :=
    filter (fun p => match find_arg kwargs (fst p) with Some _ => false | None => true end) params.

  (** parallel.py:225 [produce( *var, **fixtures)]: positional values go to the first parameters, then the
      keywords; two values for one parameter, a missing value or too many values are a [TypeError] *)
  Fixpoint bind (params : list (names * V)) (var : list V) (fix_ : list (names * V)) : outcome (list (names * V)) :=
    match params, var with
    | p :: t, x :: var' =>
        match find_arg fix_ (fst p) with Some _ => Throw | None => omap (cons (fst p, x)) (bind t var' fix_) end
    | p :: t, [] =>
        match find_arg fix_ (fst p) with Some d => omap (cons (fst p, d)) (bind t [] fix_) | None => Throw end
    | [], [] => Ok []
    | [], _ :: _ => Throw
    end.
End Parallelize.

(** ** The loop *)
Section Loop.
  Context {D Res : Type}.
  Variable save_at : nat -> bool.
  Variable make_result : list (option D) -> outcome Res.

  (** parallel.py:216-218, 238-249 state of [ParallelFor] *)
  Record loop_state := LoopState { ls_data : list (option D); ls_value : nat; ls_result : option Res }.

  (** parallel.py:238-249 [_retire] *)
  Definition retire (s : loop_state) (job : nat * D) : outcome loop_state :=
    if fst job <? length (ls_data s) then
      let data := upd (ls_data s) (fst job) (Some (snd job)) in
      let count := ls_value s + 1 in
      if save_at count then obind (make_result data) (fun r => Ok (LoopState data count (Some r)))
      else Ok (LoopState data count (ls_result s))
    else Throw.

  (** parallel.py:275-279 [__call__] with the jobs in the order in which they were retired *)
  Definition run_loop (size : nat) (jobs : list (nat * D)) : outcome loop_state :=
    ofold retire jobs (LoopState (repeat None size) 0 None).
End Loop.
Arguments loop_state : clear implicits.

(** parallel.py:121-125 [make_save_set]; [save_every] in percent.  [np.arange(0, 1, step)] has
    [ceil(1 / step)] elements; without elements [remove(0)] fails, and so does the division by zero. *)
Definition save_set (save_every : Q) (total : nat) : outcome (list nat) :=
  if Qle_bool save_every 0 then Throw else
  Ok (let step := (save_every / 100)%Q in
  let ps := map (fun k => (inject_Z (Z.of_nat k) * step)%Q) (seq 0 (Z.to_nat (Qceiling (1 / step)))) in
  total :: filter (fun n => negb (n =? 0)) (map (fun p => Z.to_nat (Qfloor (inject_Z (Z.of_nat total) * p))) ps)).

(** parallel.py:142-145, 180-183: the status hook takes a maximum over the sequence, which fails when it is empty.
    It is made with every factory. *)
Definition make_factory {V} (vars : list (list V)) : outcome (list (list V)) :=
  match product vars with [] => Throw | seq => Ok seq end.

(** ** The results *)
Section Results.
  Context {D : Type}.
  Variable zero : D.

  (** parallel.py:384-386, 418-420 [make_result]: one row per job, zeros for jobs that are missing;
      [np.vstack] needs rows of one length *)
  Definition rows (ne : nat) (data : list (option (list D))) : outcome (list (list D)) :=
    let rs := map (fun v => match v with Some r => r | None => repeat zero ne end) data in
    match rs with
    | [] => Throw
    | r :: t => if forallb (fun r' => length r' =? length r) t then Ok rs else Throw
    end.

  (** results.py:1043 [np.reshape(data, [len(v) for v in variables])]: the flat data and the shape *)
  Definition ndsweep_result (shape : list nat) (ne : nat) (data : list (option (list D))) : outcome (list D) :=
    obind (rows ne data) (fun rs =>
      let flat := concat rs in
      if length flat =? fold_right Nat.mul 1 (shape ++ [ne]) then Ok flat else Throw).

  (** parallel.py:380-386, results.py:788-792: [Sweep] takes the first variable as [x], the energies as [y]
      and the rows as they are *)
  Definition sweep_result {V} (vars : list (list V)) (ne : nat) (data : list (option (list D))) : outcome (list V * list (list D)) :=
    match vars with [] => Throw | x :: _ => omap (fun rs => (x, rs)) (rows ne data) end.

  (** an element of a C ordered array *)
  Fixpoint flat_index (shape idx : list nat) : nat :=
    match shape, idx with d :: ds, i :: is => i * fold_right Nat.mul 1 ds + flat_index ds is | _, _ => 0 end.
  Definition nd_at (shape : list nat) (flat : list D) (idx : list nat) : option D := nth_error flat (flat_index shape idx).
End Results.
