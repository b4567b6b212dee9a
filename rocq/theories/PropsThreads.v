(* Properties C22-C24: parallel loop, queue, thread pool. *)
From Verif Require Import Base Threads ThreadsSpec ThreadProofs ParallelFor ForSpec ThreadLocal ParallelForProofs ThreadPoolProofs.
From Coq Require Import Permutation.

(* ------------------------------------------------------------------ C23 *)
(** For every program over queues, every schedule and every queue: what was pushed is what was
    popped followed by what is held (order kept, nothing lost or duplicated); at most [max] items
    are held; and a queue is closed only after as many producers have left as had entered. *)
Theorem C23_queue : forall V L (act : L -> instr V L) max ls cs (s : state V L), run act (initial max ls) cs = Some s -> forall q,
  let tr := trace act (initial max ls) cs in
  pushed q tr = popped q tr ++ q_items (queues s q) /\
  (forall m, max q = Some m -> length (q_items (queues s q)) <= m) /\
  (q_closed (queues s q) = true -> added q tr <= removed q tr).
Proof. exact queue_spec. Qed.

(** A consumer is told "finished" only when everything pushed has been popped and every producer
    that had entered has left. *)
Theorem C23_told_finished : forall V L (act : L -> instr V L) max ls cs (s : state V L) c s',
  run act (initial max ls) cs = Some s -> step act s c = Some s' -> forall q, In (Told q) (event_of act s c) ->
  let tr := trace act (initial max ls) cs in pushed q tr = popped q tr /\ added q tr <= removed q tr.
Proof. exact told_spec. Qed.

(** No wake-up is lost: when no thread can go on, a waiting consumer waits on an empty open queue
    and a waiting producer on a full one. *)
Theorem C23_no_lost_wakeup : forall V L (act : L -> instr V L) max ls s, reachable act (initial max ls) s -> stuck act s ->
  forall st, In st (threads s) ->
    (forall q, waits_pop act q st -> q_items (queues s q) = [] /\ q_closed (queues s q) = false) /\
    (forall q, waits_push act q st -> exists m, max q = Some m /\ m <= length (q_items (queues s q))).
Proof. exact stuck_sleepers. Qed.

(* ------------------------------------------------------------------ C22 *)
(** With at least one compute thread no interleaving gets stuck before all threads have returned. *)
Theorem C22_no_deadlock : forall W (produce : nat -> W) compute size n queue_size, 1 <= n ->
  forall s, reachable (floop produce compute size n) (fstart n queue_size) s -> stuck (floop produce compute size n) s ->
  finished (floop produce compute size n) s.
Proof. intros W p c size n qs Hn. exact (for_no_deadlock W p c size n qs Hn). Qed.

(** Every schedule is finite: its length is bounded by the work and the spurious wake-ups. *)
Theorem C22_terminates : forall W (produce : nat -> W) compute size n queue_size cs s,
  run (floop produce compute size n) (fstart n queue_size) cs = Some s ->
  length cs <= 13 * size + n * n + 10 * n + 12 + 2 * spurious cs.
Proof. exact for_bound. Qed.

(** When the loop returns, every job was computed once and retired once, and the retired pairs are
    those of the sequential loop. *)
Theorem C22_results : forall W (produce : nat -> W) compute size n queue_size, 1 <= n ->
  forall s, reachable (floop produce compute size n) (fstart n queue_size) s -> for_returned n s ->
  produced_count size s = size /\ Permutation (computed_ids s) (seq 0 size) /\
  Permutation (retired_jobs s) (sequential produce compute (seq 0 size)).
Proof.
  intros W p c size n qs Hn s HR (k & E & Hk). apply (for_results W p c size n qs Hn s HR).
  exists k. split; [exact E|]. cbn [floop]. destruct (Nat.ltb_spec k (n + 2)); [lia|reflexivity].
Qed.

(** At every moment: produced ids are 0, 1, ...; computed ids are among them, each once; retired
    jobs are results of computed ones, each once. *)
Theorem C22_stages : forall W (produce : nat -> W) compute size n queue_size s,
  reachable (floop produce compute size n) (fstart n queue_size) s ->
  produced_count size s <= size /\
  (exists rest, Permutation (computed_ids s ++ rest) (seq 0 (produced_count size s))) /\
  (exists rest, Permutation (retired_jobs s ++ rest) (sequential produce compute (computed_ids s))).
Proof. exact for_stages. Qed.

(** The guard is needed: with no compute threads the call never returns, even for no jobs. *)
Theorem C22_zero_threads_hang : forall W (produce : nat -> W) compute size queue_size s,
  reachable (floop produce compute size 0) (fstart 0 queue_size) s -> ~ for_returned 0 s.
Proof.
  intros W p c size qs s HR (k & E & Hk). apply (for_zero_threads W p c size 0 qs eq_refl s HR).
  exists k. split; [exact E|]. cbn [floop]. destruct (Nat.ltb_spec k (0 + 2)); [lia|reflexivity].
Qed.

(** Two compute threads, queue of one, four jobs; the scheduler prefers the reporter. *)
Definition ex_act := floop (fun i => i + 10) (fun v => v * v) 4 2.
Definition ex_cs (order : list nat) := greedy ex_act 200 order (fstart 2 1).
(** First thread 1 takes job 0 and pauses, then it is scheduled last. *)
Definition ex_pause := [Turn 0 0; Turn 0 0; Turn 0 0; Turn 1 0; Turn 1 0].
Definition ex_cs2 := ex_pause ++ match run ex_act (fstart 2 1) ex_pause with Some s => greedy ex_act 200 [0; 2; 3; 1; 4] s | None => [] end.
Example C22_example :
  match run ex_act (fstart 2 1) ex_cs2, run ex_act (fstart 2 1) (ex_cs [0; 1; 2; 3; 4]) with
  | Some s, Some s' =>
    (retired_jobs s, computed_ids s, forallb (halted ex_act) (threads s)) = ([(1, 121); (2, 144); (3, 169); (0, 100)], [0; 1; 2; 3], true) /\
    forallb (halted ex_act) (threads s') = true /\ produced_count 4 s' = 4
  | _, _ => False
  end.
Proof. vm_compute. auto. Qed.
(** No compute threads and no jobs: stuck with the reporter asleep. *)
Example C22_hang_example :
  let act := floop (fun i => i) (fun v => v) 0 0 in
  match run act (fstart 0 5) (greedy act 50 [0; 1; 2] (fstart 0 5)) with
  | Some s => threads s = [Run PDone; Sleep (RLoop []); Run (MJoin 1)] /\ pick act s [0; 1; 2] = None
  | None => False
  end.
Proof. vm_compute. auto. Qed.
(** The queue of one was full at some moment, and some consumer was told to finish. *)
Example C23_example :
  let tr := trace ex_act (fstart 2 1) (ex_cs [0; 1; 2; 3; 4]) in
  pushed 0 tr = [(0, 10); (1, 11); (2, 12); (3, 13)] /\ popped 0 tr = pushed 0 tr /\
  countb (fun e => match e with Told 0 => true | _ => false end) tr = 2 /\ added 1 tr = 2 /\ removed 1 tr = 2.
Proof. vm_compute. auto. Qed.

(* ------------------------------------------------------------------ C24 *)
Theorem C24_no_deadlock : forall T n (tasks : list T) s, reachable (tpool n) (tstart n tasks) s -> stuck (tpool n) s -> finished (tpool n) s.
Proof. exact pool_no_deadlock. Qed.
Theorem C24_terminates : forall T n (tasks : list T) cs s, run (tpool n) (tstart n tasks) cs = Some s ->
  length cs <= 7 * length tasks + 4 * n + 5 + 2 * spurious cs.
Proof. exact pool_bound. Qed.
(** At every moment the tasks run to the end are among the submitted ones, each once. *)
Theorem C24_at_most_once : forall T n (tasks : list T) s, reachable (tpool n) (tstart n tasks) s ->
  exists rest, Permutation (tasks_run s ++ rest) tasks.
Proof. exact pool_once. Qed.
(** When [join] has returned, every task has been run to the end exactly once. *)
Theorem C24_join : forall T n (tasks : list T), 1 <= n -> forall s, reachable (tpool n) (tstart n tasks) s -> pool_joined n s ->
  Permutation (tasks_run s) tasks.
Proof.
  intros T n tasks Hn s HR (k & E & Hk). apply (pool_results T n tasks Hn s HR).
  exists k. split; [exact E|]. cbn [tpool]. destruct (Nat.ltb_spec k n); [lia|reflexivity].
Qed.
(** Without workers [join] returns at once and no task is run. *)
Theorem C24_no_workers_refuted : exists (tasks : list nat) s,
  reachable (tpool 0) (tstart 0 tasks) s /\ pool_joined 0 s /\ ~ Permutation (tasks_run s) tasks.
Proof.
  exists [7]. destruct (run (tpool 0) (tstart 0 [7]) (greedy (tpool 0) 20 [0] (tstart 0 [7]))) as [s|] eqn:E; [|vm_compute in E; discriminate].
  exists s. split; [exists (greedy (tpool 0) 20 [0] (tstart 0 [7])); exact E|].
  assert (X : match run (tpool 0) (tstart 0 [7]) (greedy (tpool 0) 20 [0] (tstart 0 [7])) with Some s => threads s = [Run (TJoin 0)] | None => False end) by (vm_compute; reflexivity).
  rewrite E in X. split; [exists 0; rewrite X; split; [reflexivity|lia]|]. unfold tasks_run. rewrite X. cbn. intros Pm. apply Permutation_nil in Pm. discriminate.
Qed.
Example C24_example :
  match run (tpool 2) (tstart 2 [5; 6; 7]) (greedy (tpool 2) 100 [0; 1; 2] (tstart 2 [5; 6; 7])) with
  | Some s => tasks_run s = [5; 6; 7] /\ forallb (halted (tpool 2)) (threads s) = true
  | None => False
  end.
Proof. vm_compute. auto. Qed.

Print Assumptions C22_results.
Print Assumptions C24_join.
