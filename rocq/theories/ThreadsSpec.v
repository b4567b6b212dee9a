(* Independent specification of the concurrent programs (C22-C24). *)
From Verif Require Import Base Threads.

Section Spec.
  Variable V L : Type.
  Variable act : L -> instr V L.

  (** States reachable from [s0] under some schedule. *)
  Definition reachable (s0 s : state V L) : Prop := exists cs, run act s0 cs = Some s.

  (** No thread can go on by itself. *)
  Definition stuck (s : state V L) : Prop := forall t w, step_thread act s t w = None.

  (** All threads have returned. *)
  Definition finished (s : state V L) : Prop := forall st, In st (threads s) -> exists l, st = Run l /\ act l = Halt.

  (** Number of wake-ups without notification in a schedule. *)
  Definition spurious (cs : list choice) : nat := countb (fun c => match c with Spurious _ => true | _ => false end) cs.

  (** Number of [add_producer] minus [remove_producer] instructions executed is what the queue
      counts; the queue is open from the moment the count becomes positive until it drops to zero. *)
  Definition waits_pop (q : nat) (st : status L) : Prop := exists l k, st = Sleep l /\ act l = Pop q k.
  Definition waits_push (q : nat) (st : status L) : Prop := exists l v l', st = Sleep l /\ act l = Push q v l'.
End Spec.
Arguments reachable {V L}. Arguments stuck {V L}. Arguments finished {V L}. Arguments waits_pop {V L}. Arguments waits_push {V L}.

(* ---------------------------------------------------------------- what the threads did *)
Section Trace.
  Variable V L : Type.
  Variable act : L -> instr V L.

  (** Completed queue operations; [Told q] is a [pop] that returned "finished". *)
  Inductive event := Added (q : nat) | Removed (q : nat) | Pushed (q : nat) (v : V) | Popped (q : nat) (v : V) | Told (q : nat).

  (** A running thread completes its operation unless the queue makes it wait: [push] waits while
      [max] items are held, [pop] while there is no item and the queue is open. *)
  Definition event_of (s : state V L) (c : choice) : list event :=
    match c with
    | Turn t _ =>
      match nth_error (threads s) t with
      | Some (Run l) =>
        match act l with
        | AddProducer q _ => [Added q]
        | RemoveProducer q _ => [Removed q]
        | Push q v _ => match q_max (queues s q) with
                        | Some m => if m <=? length (q_items (queues s q)) then [] else [Pushed q v]
                        | None => [Pushed q v]
                        end
        | Pop q _ => match q_items (queues s q) with
                     | v :: _ => [Popped q v]
                     | [] => if q_closed (queues s q) then [Told q] else []
                     end
        | _ => []
        end
      | _ => []
      end
    | Spurious _ => []
    end.
  Fixpoint trace (s : state V L) (cs : list choice) : list event :=
    match cs with
    | [] => []
    | c :: r => match step act s c with Some s' => event_of s c ++ trace s' r | None => [] end
    end.

  Definition pushed (q : nat) (tr : list event) : list V := flat_map (fun e => match e with Pushed q' v => if q' =? q then [v] else [] | _ => [] end) tr.
  Definition popped (q : nat) (tr : list event) : list V := flat_map (fun e => match e with Popped q' v => if q' =? q then [v] else [] | _ => [] end) tr.
  Definition added (q : nat) (tr : list event) : nat := countb (fun e => match e with Added q' => q' =? q | _ => false end) tr.
  Definition removed (q : nat) (tr : list event) : nat := countb (fun e => match e with Removed q' => q' =? q | _ => false end) tr.
End Trace.
Arguments Added {V}. Arguments Removed {V}. Arguments Pushed {V}. Arguments Popped {V}. Arguments Told {V}.
Arguments event_of {V L}. Arguments trace {V L}. Arguments pushed {V}. Arguments popped {V}. Arguments added {V}. Arguments removed {V}.
