(* Model of the programs that use the queue: the parallel loop and the thread pool.
   cppcore/include/detail/thread.hpp:114-201.

   [produce] and [compute] are pure functions here; [retire] is the list of calls it received.
   An exception thrown by a callback ends the process (std::terminate) and is not modelled. *)
From Verif Require Import Base Threads.

Section ParallelFor.
  Variable W : Type.                     (* Job::value *)
  Variable produce : nat -> W.
  Variable compute : W -> W.
  Variables size num_threads queue_size : nat.
  Definition job : Type := (nat * W)%type.

  (** Local states; the lists are what the thread has done: ids computed, calls of [retire]. *)
  Inductive floc :=
  | PStart | PLoop (i : nat) | PDone
  | WStart | WLoop (d : list nat) | WGot (j : job) (d : list nat) | WSend (j : job) (d : list nat) | WEnd (d : list nat) | WDone (d : list nat)
  | RLoop (r : list job) | RDone (r : list job)
  | MJoin (k : nat).

  Definition floop (l : floc) : instr job floc :=
    match l with
    (* 131-136 *)
    | PStart => AddProducer 0 (PLoop 0)
    | PLoop i => if i <? size then Push 0 (i, produce i) (PLoop (S i)) else RemoveProducer 0 PDone
    | PDone => Halt
    (* 142-149 *)
    | WStart => AddProducer 1 (WLoop [])
    | WLoop d => Pop 0 (fun m => match m with Some j => WGot j d | None => WEnd d end)
    | WGot j d => Local (WSend (fst j, compute (snd j)) (d ++ [fst j]))
    | WSend j d => Push 1 j (WLoop d)
    | WEnd d => RemoveProducer 1 (WDone d)
    | WDone _ => Halt
    (* 153-158 *)
    | RLoop r => Pop 1 (fun m => match m with Some j => RLoop (r ++ [j]) | None => RDone r end)
    | RDone _ => Halt
    (* 160-164: production thread, workers, reporter *)
    | MJoin k => if k <? num_threads + 2 then Join k (MJoin (S k)) else Halt
    end.

  (** 127-128 *)
  Definition fmax (q : nat) : option nat :=
    match q with 0 => Some (if 0 <? queue_size then queue_size else num_threads) | _ => None end.
  Definition fthreads : list floc := PStart :: repeat WStart num_threads ++ [RLoop []; MJoin 0].
  Definition fstart : state job floc := initial fmax fthreads.
End ParallelFor.
Arguments floop {W}. Arguments fstart {W}. Arguments fthreads {W}. Arguments job W : clear implicits. Arguments floc W : clear implicits.
Arguments PStart {W}. Arguments PLoop {W}. Arguments PDone {W}. Arguments WStart {W}. Arguments WLoop {W}. Arguments WGot {W}. Arguments WSend {W}.
Arguments WEnd {W}. Arguments WDone {W}. Arguments RLoop {W}. Arguments RDone {W}. Arguments MJoin {W}.

Section ThreadPool.
  Variable T : Type.                     (* std::function<void()> *)
  Variable num_threads : nat.

  (** The owner: constructor 169-178, [add] 182-185 for each task, [join] 187-195 (also from the
      destructor 180; a second call returns at once).  A worker: 172-176, with the tasks it ran. *)
  Inductive tloc :=
  | TCtor (todo : list T) | TAdd (todo : list T) | TJoin (k : nat)
  | TLoop (d : list T) | TRun (f : T) (d : list T) | TDone (d : list T).
  Definition tpool (l : tloc) : instr T tloc :=
    match l with
    | TCtor todo => AddProducer 0 (TAdd todo)
    | TAdd [] => RemoveProducer 0 (TJoin 0)
    | TAdd (f :: r) => Push 0 f (TAdd r)
    | TJoin k => if k <? num_threads then Join k (TJoin (S k)) else Halt
    | TLoop d => Pop 0 (fun m => match m with Some f => TRun f d | None => TDone d end)
    | TRun f d => Local (TLoop (d ++ [f]))
    | TDone _ => Halt
    end.
  Definition tstart (todo : list T) : state T tloc := initial (fun _ => None) (repeat (TLoop []) num_threads ++ [TCtor todo]).
End ThreadPool.
Arguments TCtor {T}. Arguments TAdd {T}. Arguments TJoin {T}. Arguments TLoop {T}. Arguments TRun {T}. Arguments TDone {T}.
Arguments tpool {T}. Arguments tstart {T}. Arguments tloc T : clear implicits.
