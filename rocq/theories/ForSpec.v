(* Independent specification of the parallel loop and the thread pool (C22, C24): what has been
   done so far, read off the local states of the threads. *)
From Verif Require Import Base Threads ParallelFor.

Definition place {L} (st : status L) : L := match st with Run l | Sleep l => l | Note _ _ l => l end.

(** Ids for which [compute] was called; calls of [retire] in order per thread; number of calls of [produce]. *)
Definition computed_ids {W} (s : state (job W) (floc W)) : list nat :=
  flat_map (fun l => match l with WLoop d | WGot _ d | WSend _ d | WEnd d | WDone d => d | _ => [] end) (map place (threads s)).
Definition retired_jobs {W} (s : state (job W) (floc W)) : list (job W) :=
  flat_map (fun l => match l with RLoop r | RDone r => r | _ => [] end) (map place (threads s)).
Definition produced_count {W} (size : nat) (s : state (job W) (floc W)) : nat :=
  list_sum (map (fun l => match l with PLoop i => i | PDone => size | _ => 0 end) (map place (threads s))).
(** parallel_for has returned to its caller: all joins are done. *)
Definition for_returned {W} (n : nat) (s : state (job W) (floc W)) : Prop :=
  exists k, nth_error (threads s) (n + 2) = Some (Run (MJoin k)) /\ n + 2 <= k.
(** The sequential loop. *)
Definition sequential {W} (produce : nat -> W) (compute : W -> W) (ids : list nat) : list (job W) :=
  map (fun i => (i, compute (produce i))) ids.

(** Tasks run to the end; the owner has returned from [join]. *)
Definition tasks_run {T} (s : state T (tloc T)) : list T :=
  flat_map (fun l => match l with TLoop d | TDone d | TRun _ d => d | _ => [] end) (map place (threads s)).
Definition pool_joined {T} (n : nat) (s : state T (tloc T)) : Prop :=
  exists k, nth_error (threads s) n = Some (Run (TJoin k)) /\ n <= k.

(** A scheduler for the examples: always the first thread that can go on. *)
Fixpoint first_some {A B} (f : A -> option B) (l : list A) : option (A * B) :=
  match l with [] => None | a :: r => match f a with Some b => Some (a, b) | None => first_some f r end end.
Section Greedy.
  Variable V L : Type.
  Variable act : L -> instr V L.
  Definition pick (s : state V L) (order : list nat) : option (choice * state V L) :=
    first_some (fun c => step act s c) (flat_map (fun t => map (fun w => Turn t w) (seq 0 (length (threads s)))) order).
  Fixpoint greedy (fuel : nat) (order : list nat) (s : state V L) : list choice :=
    match fuel with
    | 0 => []
    | S f => match pick s order with Some (c, s') => c :: greedy f order s' | None => [] end
    end.
End Greedy.
Arguments greedy {V L}. Arguments pick {V L}.
