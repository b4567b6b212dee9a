(* Deferred computations of the local density of states.

   Mirrors cppmodule/include/thread.hpp:9-42 (Deferred), cppmodule/src/kpm.cpp:84-91 (deferred_ldos), cppmodule/src/parallel.cpp:24-43
   (the three callbacks of parallel_for), cppcore/src/KPM.cpp:7-13 (KPM, set_model), 55-65 (calc_ldos).

   The world is the list of solvers and the list of deferred objects; both are only ever appended to, since every
   deferred object keeps a reference to its solver (kpm.cpp:89).  A solver holds its own copy of a model.  A computation
   that runs without the lock of the interpreter is two events, its start and its end; two computations with one solver
   at a time, or a change of the solver meanwhile, race for the state of the core and are undefined.  The numbers come from
   [calc]: the model the solver shows gives the rows of the site, the one the core was set up with the matrix. *)
From Verif Require Import Base.
From Coq Require Import List Arith Bool.
Import ListNotations.

Section Deferred.
  Variables M A V : Type.
  (** Model::hamiltonian: an exception if a part of the model cannot be built *)
  Variable builds : M -> bool.
  (** KPM::calc_ldos *)
  Variable calc : M -> M -> A -> option V.

  (** KPM.hpp:44-46 *)
  Record kpm := Kpm { k_model : M; k_core : M }.
  (** thread.hpp:35-41; [d_computed] with [d_result] *)
  Record deferred := Def { d_kpm : nat; d_args : A; d_result : option V; d_computed : bool }.
  Record world := World { w_kpms : list kpm; w_defs : list deferred; w_busy : list nat }.

  Inductive event :=
  | New (m : M)                 (** pb.kpm(model) *)
  | Set_model (k : nat) (m : M) (** solver.model = model *)
  | Defer (k : nat) (a : A)     (** solver.deferred_ldos(...) *)
  | Start (d : nat)             (** a thread calls compute() *)
  | Finish (d : nat)            (** ... and returns from it *)
  | Result (d : nat).           (** deferred.result *)
  Inductive reply := Done | Raised | Value (v : option V).

  Definition kpm_of (w : world) (d : nat) : option nat := option_map d_kpm (nth_error (w_defs w) d).
  (** a thread is in calc_ldos of solver [k] *)
  Definition busy (w : world) (k : nat) : bool :=
    existsb (fun d => match kpm_of w d with Some k' => k' =? k | None => false end) (w_busy w).

  (** KPM.cpp:10-13 *)
  Definition set_model (w : world) (k : nat) (m : M) : outcome (world * reply) :=
    match nth_error (w_kpms w) k with
    | None => Ok (w, Raised)
    | Some q => if busy w k then UB
      else let q' := Kpm m (if builds m then m else k_core q) in
           Ok (World (upd (w_kpms w) k q') (w_defs w) (w_busy w), if builds m then Done else Raised)
    end.
  (** kpm.cpp:84-91 *)
  Definition deferred_ldos (w : world) (k : nat) (a : A) : outcome (world * reply) :=
    match nth_error (w_kpms w) k with
    | None => Ok (w, Raised)
    | Some q => if builds (k_model q) then Ok (World (w_kpms w) (w_defs w ++ [Def k a None false]) (w_busy w), Done) else Ok (w, Raised)
    end.
  (** thread.hpp:26-31: [if (is_computed) return; _result = _compute(); is_computed = true;] *)
  Definition start (w : world) (d : nat) : outcome (world * reply) :=
    match nth_error (w_defs w) d with
    | None => Ok (w, Raised)
    | Some x => if d_computed x then Ok (w, Done)
      else if busy w (d_kpm x) then UB else Ok (World (w_kpms w) (w_defs w) (d :: w_busy w), Done)
    end.
  Definition finish (w : world) (d : nat) : outcome (world * reply) :=
    if existsb (Nat.eqb d) (w_busy w) then
      match nth_error (w_defs w) d with
      | None => UB
      | Some x =>
        match nth_error (w_kpms w) (d_kpm x) with
        | None => UB
        | Some q =>
          let b := filter (fun e => negb (Nat.eqb e d)) (w_busy w) in
          match calc (k_model q) (k_core q) (d_args x) with
          | Some v => Ok (World (w_kpms w) (upd (w_defs w) d (Def (d_kpm x) (d_args x) (Some v) true)) b, Done)
          | None => Ok (World (w_kpms w) (w_defs w) b, Raised)
          end
        end
      end
    else Ok (w, Done).
  (** thread.hpp:33: [compute(); return _result;] *)
  Definition result (w : world) (d : nat) : outcome (world * reply) :=
    obind (start w d) (fun r =>
    match snd r with
    | Raised => Ok r
    | _ => obind (finish (fst r) d) (fun r' =>
           match snd r' with
           | Raised => Ok r'
           | _ => match nth_error (w_defs (fst r')) d with Some x => Ok (fst r', Value (d_result x)) | None => UB end
           end)
    end).
  Definition step (w : world) (e : event) : outcome (world * reply) :=
    match e with
    | New m => if builds m then Ok (World (w_kpms w ++ [Kpm m m]) (w_defs w) (w_busy w), Done) else Ok (w, Raised)
    | Set_model k m => set_model w k m
    | Defer k a => deferred_ldos w k a
    | Start d => start w d
    | Finish d => finish w d
    | Result d => result w d
    end.
  Definition run (es : list event) (w : world) : outcome world := ofold (fun w e => omap fst (step w e)) es w.
  Definition nothing : world := World [] [] [].
End Deferred.
