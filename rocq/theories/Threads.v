(* Model of the concurrent queue and of programs that use it.
   cppcore/include/detail/thread.hpp:8-94.

   A thread is a deterministic local program: [act l] is the next instruction in local state [l].
   Code between locking and unlocking the mutex of a queue is one step.  Waiting on a condition
   variable, being notified, and the notification that follows the unlock are separate steps, so
   every interleaving of them is a schedule.  Waking up puts the thread back to the instruction,
   which tests the predicate again (the loop inside [condition_variable::wait]).  A thread that
   has not been created yet is one that has not been scheduled yet. *)
From Verif Require Import Base.

Section Machine.
  Variable V : Type.                     (* items of the queues *)
  Variable L : Type.                     (* local states of the threads *)

  Inductive instr :=
  | Halt
  | Local (l : L)
  | Push (q : nat) (v : V) (l : L)
  | Pop (q : nat) (k : option V -> L)
  | AddProducer (q : nat) (l : L)
  | RemoveProducer (q : nat) (l : L)
  | Join (t : nat) (l : L).              (* std::thread::join *)
  Variable act : L -> instr.

  (** thread.hpp:75-85; [q_max = None] is the default [numeric_limits<size_t>::max()], which no
      queue reaches.  [q_in] and [q_out] are history: all items pushed and popped so far. *)
  Record queue := Queue {
    q_items : list V; q_closed : bool; q_producers : Z; q_max : option nat;
    q_in : list V; q_out : list V
  }.
  Definition new_queue (max : option nat) : queue := Queue [] false 0 max [] [].
  Definition has_room (Q : queue) : bool :=
    match q_max Q with Some m => length (q_items Q) <? m | None => true end.

  (** 29-34 *)
  Definition add_producer (Q : queue) : queue :=
    let n := (q_producers Q + 1)%Z in
    Queue (q_items Q) (if (0 <? n)%Z then false else q_closed Q) n (q_max Q) (q_in Q) (q_out Q).
  (** 36-43 *)
  Definition remove_producer (Q : queue) : queue :=
    let n := (q_producers Q - 1)%Z in
    Queue (q_items Q) (if (n <=? 0)%Z then true else q_closed Q) n (q_max Q) (q_in Q) (q_out Q).
  (** 59-73 *)
  Definition push_item (Q : queue) (v : V) : queue :=
    Queue (q_items Q ++ [v]) (q_closed Q) (q_producers Q) (q_max Q) (q_in Q ++ [v]) (q_out Q).
  (** 45-57 *)
  Definition pop_item (Q : queue) (v : V) (r : list V) : queue :=
    Queue r (q_closed Q) (q_producers Q) (q_max Q) (q_in Q) (q_out Q ++ [v]).

  (** Pending notification of a queue: one consumer, one producer, all consumers. *)
  Inductive kind := OneConsumer | OneProducer | AllConsumers.
  Definition kind_eqb (a b : kind) : bool :=
    match a, b with OneConsumer, OneConsumer | OneProducer, OneProducer | AllConsumers, AllConsumers => true | _, _ => false end.
  Inductive status :=
  | Run (l : L)                          (* about to execute [act l] *)
  | Sleep (l : L)                        (* waiting inside [act l] *)
  | Note (k : kind) (q : nat) (l : L).   (* unlocked, notification pending, then [Run l] *)

  Record state := State { queues : nat -> queue; threads : list status }.
  Definition set_queue (f : nat -> queue) (q : nat) (Q : queue) : nat -> queue := fun r => if r =? q then Q else f r.

  (** Waiting on [consumption_cv] / [production_cv] of queue [q]. *)
  Definition asleep_pop (q : nat) (st : status) : bool :=
    match st with Sleep l => match act l with Pop q' _ => q' =? q | _ => false end | _ => false end.
  Definition asleep_push (q : nat) (st : status) : bool :=
    match st with Sleep l => match act l with Push q' _ _ => q' =? q | _ => false end | _ => false end.
  Definition asleep (k : kind) (q : nat) (st : status) : bool :=
    match k with OneProducer => asleep_push q st | _ => asleep_pop q st end.
  Definition wake (st : status) : status := match st with Sleep l => Run l | x => x end.
  Definition halted (st : status) : bool :=
    match st with Run l => match act l with Halt => true | _ => false end | _ => false end.

  (** Thread [t] makes a step; [w] is the thread that a notification wakes.  [None]: not possible. *)
  Definition step_thread (s : state) (t w : nat) : option state :=
    match nth_error (threads s) t with
    | None => None
    | Some (Run l) =>
      match act l with
      | Halt => None
      | Local l' => Some (State (queues s) (upd (threads s) t (Run l')))
      | Push q v l' =>
        if has_room (queues s q)
        then Some (State (set_queue (queues s) q (push_item (queues s q) v)) (upd (threads s) t (Note OneConsumer q l')))
        else Some (State (queues s) (upd (threads s) t (Sleep l)))
      | Pop q k =>
        match q_items (queues s q) with
        | v :: r => Some (State (set_queue (queues s) q (pop_item (queues s q) v r)) (upd (threads s) t (Note OneProducer q (k (Some v)))))
        | [] => if q_closed (queues s q) then Some (State (queues s) (upd (threads s) t (Run (k None))))
                else Some (State (queues s) (upd (threads s) t (Sleep l)))
        end
      | AddProducer q l' => Some (State (set_queue (queues s) q (add_producer (queues s q))) (upd (threads s) t (Run l')))
      | RemoveProducer q l' =>
        Some (State (set_queue (queues s) q (remove_producer (queues s q))) (upd (threads s) t (Note AllConsumers q l')))
      | Join u l' =>
        match nth_error (threads s) u with
        | Some st => if halted st then Some (State (queues s) (upd (threads s) t (Run l'))) else None
        | None => None
        end
      end
    | Some (Sleep _) => None
    | Some (Note AllConsumers q l') =>
      Some (State (queues s) (map (fun st => if asleep_pop q st then wake st else st) (upd (threads s) t (Run l'))))
    | Some (Note k q l') =>
      let ts := upd (threads s) t (Run l') in
      if existsb (asleep k q) ts
      then match nth_error ts w with
           | Some st => if asleep k q st then Some (State (queues s) (upd ts w (wake st))) else None
           | None => None
           end
      else Some (State (queues s) ts)
    end.

  (** A condition variable may also wake a waiting thread without notification. *)
  Definition step_spurious (s : state) (t : nat) : option state :=
    match nth_error (threads s) t with
    | Some (Sleep l) => Some (State (queues s) (upd (threads s) t (Run l)))
    | _ => None
    end.

  (** One entry of a schedule. *)
  Inductive choice := Turn (t w : nat) | Spurious (t : nat).
  Definition step (s : state) (c : choice) : option state :=
    match c with Turn t w => step_thread s t w | Spurious t => step_spurious s t end.
  Fixpoint run (s : state) (cs : list choice) : option state :=
    match cs with
    | [] => Some s
    | c :: r => match step s c with Some s' => run s' r | None => None end
    end.

  Definition initial (max : nat -> option nat) (ls : list L) : state :=
    State (fun q => new_queue (max q)) (map Run ls).
End Machine.
Arguments Halt {V L}. Arguments Local {V L}. Arguments Push {V L}. Arguments Pop {V L}. Arguments AddProducer {V L}.
Arguments RemoveProducer {V L}. Arguments Join {V L}.
Arguments Queue {V}. Arguments q_items {V}. Arguments q_closed {V}. Arguments q_producers {V}. Arguments q_max {V}. Arguments q_in {V}. Arguments q_out {V}.
Arguments new_queue {V}. Arguments has_room {V}. Arguments add_producer {V}. Arguments remove_producer {V}. Arguments push_item {V}. Arguments pop_item {V}.
Arguments Run {L}. Arguments Sleep {L}. Arguments Note {L}. Arguments State {V L}. Arguments queues {V L}. Arguments threads {V L}.
Arguments set_queue {V}. Arguments asleep_pop {V L}. Arguments asleep_push {V L}. Arguments asleep {V L}. Arguments wake {L}. Arguments halted {V L}.
Arguments step_thread {V L}. Arguments step_spurious {V L}. Arguments step {V L}. Arguments run {V L}. Arguments initial {V L}.
