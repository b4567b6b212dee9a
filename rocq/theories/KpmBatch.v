(* Batches of start vectors handed out to worker threads, and the two ways in which their moments
   are gathered.

   Mirrors cppcore/src/kpm/default/Compute.cpp:27-33, 52-88, include/kpm/Starter.hpp:36-50
   (make_r0), src/kpm/Moments.cpp:7-81, 112-118 and include/kpm/Moments.hpp:26-43.

   Simplifications: a thread taking start vectors under the starter lock is one atomic step and
   a thread adding its moments under the lock of the moments object is another; between the two
   it computes on its own data only.  [mom k] is the moment array that start vector number [k]
   produces (its value is the subject of KpmEnd.v); the thread pool itself, which runs every
   submitted task once, is modelled in ThreadPool.v.  Division by the number of vectors is
   multiplication by [inv_v]. *)
From Verif Require Import Base Scalar.

Section Batch.
  Variable R : scalar.
  Local Open Scope k_scope.
  Variable bs : nat.                 (* simd::traits<scalar_t>::size *)
  Variable M : nat.                  (* num_moments *)
  Variable v : nat.                  (* num_vectors *)
  Variable inv_v : R.
  Variable mom : nat -> list R.

  (** ** Tasks: Compute.cpp:52-66 *)
  Inductive task := TBatch | TSingle.
  Definition make_tasks (threads : nat) : list task :=
    let num_batches := (v / bs)%nat in
    let num_singles := (v mod bs)%nat in
    if (threads * bs / 2 <? num_singles)%nat then repeat TBatch (S num_batches)
    else repeat TBatch num_batches ++ repeat TSingle num_singles.

  (** Number of start vectors a task takes: Starter.hpp:38, 44 *)
  Definition vectors (t : task) : nat := match t with TBatch => bs | TSingle => 1 end.

  (** [BatchData]: one moment array, or one array per column. *)
  Inductive data := DVec (a : list R) | DMat (cols : list (list R)).
  Definition task_moments (t : task) (idx : nat) : data :=
    match t with
    | TBatch => DMat (map mom (seq idx bs))
    | TSingle => DVec (mom idx)
    end.

  (** ** Accumulator: Moments.cpp:7-49 *)
  Definition vadd (a c : list R) : list R := map (fun p => fst p + snd p) (combine a c).
  Definition accumulator := (nat * data)%type.          (* count, result *)

  Definition finish (count : nat) (r : list R) : accumulator :=
    if ((v <=? count) && negb (v =? 1))%nat then (0%nat, DVec (map (fun x => x * inv_v) r)) else (count, DVec r).
  (** [var_result.get<ArrayX>()] *)
  Definition get_array (d : data) : outcome (list R) := match d with DVec r => Ok r | DMat _ => Throw end.
  Definition add_array (r a : list R) : outcome (list R) := if length r =? length a then Ok (vadd r a) else UB.

  (** [remaining > batch_size ? batch_size : remaining]; a negative column count is not allowed. *)
  Definition used_cols (idx n : nat) : outcome nat :=
    if idx <=? v then Ok (if n <? v - idx then n else v - idx)%nat else UB.

  Definition accumulate (s : accumulator) (nd : data) (idx : nat) : outcome accumulator :=
    match nd with
    | DVec a =>
        obind (if fst s =? 0 then Ok a else obind (get_array (snd s)) (fun r => add_array r a)) (fun r =>
        Ok (finish (S (fst s)) r))
    | DMat cols =>
        let result := if fst s =? 0 then DVec (repeat k0 M) else snd s in
        obind (used_cols idx (length cols)) (fun n =>
        obind (get_array result) (fun r =>
        obind (ofold add_array (firstn n cols) (repeat k0 M)) (fun sum =>
        obind (add_array r sum) (fun r' =>
        Ok (finish (fst s + length cols)%nat r')))))
    end.

  (** ** Concatenator: Moments.cpp:51-81.  [None] is an array that was not written yet. *)
  Definition concatenator := (nat * option (list (option (list R))))%type.
  Definition get_cols (s : concatenator) : outcome (list (option (list R))) :=
    if fst s =? 0 then Ok (repeat None v)
    else match snd s with Some cols => Ok cols | None => Throw end.
  Fixpoint write_cols (cols : list (option (list R))) (idx : nat) (l : list (list R)) : list (option (list R)) :=
    match l with
    | [] => cols
    | a :: l' => write_cols (upd cols idx (Some a)) (S idx) l'
    end.
  Definition concatenate (s : concatenator) (nd : data) (idx : nat) : outcome concatenator :=
    obind (get_cols s) (fun cols =>
    match nd with
    | DVec a => if idx <? length cols then Ok (S (fst s), Some (upd cols idx (Some a))) else UB
    | DMat l =>
        obind (used_cols idx (length l)) (fun n =>
        if idx + n <=? length cols then Ok (fst s + n, Some (write_cols cols idx (firstn n l)))%nat else UB)
    end).

  (** ** Scheduling: Compute.cpp:27-33, 68-84 *)
  Inductive status := Waiting | Taken (idx : nat) | Done (idx : nat).

  Section Schedule.
    Variable C : Type.
    Variable collect : C -> data -> nat -> outcome C.
    Record state := State { st_tasks : list (task * status); st_count : nat; st_coll : C }.

    (** The task chosen at each step is arbitrary. *)
    Inductive step (s : state) : outcome state -> Prop :=
    | step_take : forall i t, nth_error (st_tasks s) i = Some (t, Waiting) ->
        step s (Ok (State (upd (st_tasks s) i (t, Taken (st_count s))) (st_count s + vectors t)%nat (st_coll s)))
    | step_deliver : forall i t idx, nth_error (st_tasks s) i = Some (t, Taken idx) ->
        step s (omap (State (upd (st_tasks s) i (t, Done idx)) (st_count s)) (collect (st_coll s) (task_moments t idx) idx)).

    Definition start (threads : nat) (c : C) : state := State (map (fun t => (t, Waiting)) (make_tasks threads)) 0 c.
    Inductive reach (s0 : state) : state -> Prop :=
    | reach_start : reach s0 s0
    | reach_step : forall s s', reach s0 s -> step s (Ok s') -> reach s0 s'.

    Definition is_done (p : task * status) : bool := match snd p with Done _ => true | _ => false end.
    Definition finished (s : state) : Prop := forallb is_done (st_tasks s) = true.
  End Schedule.
End Batch.
Arguments State {C}. Arguments st_tasks {C}. Arguments st_count {C}. Arguments st_coll {C}.
Arguments DVec {R}. Arguments DMat {R}.
