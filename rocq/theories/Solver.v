(* The eigensolver and kernel polynomial objects as state machines: which Hamiltonian their answers
   belong to.
   cppcore/src/solver/Solver.cpp:47-86, cppcore/include/detail/strategy.hpp,
   cppmodule/src/solver.cpp:6-16, pybinding/solver.py:28-100, 336-393; cppcore/src/KPM.cpp:7-13. *)
From Verif Require Import Base ModelState.

Section Solver.
  (** Models, matrices and results are not looked into.  [ham] is [Model::hamiltonian()], which
      may store what it builds in the model; [same_type] compares the scalar types of two
      matrices (Hamiltonian.hpp [ham::is]); [solve_for] is a strategy: its result depends on its
      matrix only, or it raises. *)
  Variables Mdl H V : Type.
  Variable ham : Mdl -> Mdl * res H.
  Variable same_type : H -> H -> bool.
  Variable solve_for : H -> res V.

  (** What a user can do with a Python solver object.  [SetWave f]: [Solver.set_wave_vector],
      where [f] is the effect of [Model.set_wave_vector] on the model; [Edit f]: any other change
      made to [solver.model] in place (the property returns a reference). *)
  Inductive sop := SetModel (m : Mdl) | SetWave (f : Mdl -> Mdl) | Edit (f : Mdl -> Mdl) | Clear | Solve.

  (** ** BaseSolver *)
  Record strategy := Strategy { t_ham : H; t_res : option V }.
  Record bsolver := BSolver { b_model : Mdl; b_strat : option strategy; b_solved : bool }.

  (** Solver.cpp:47-49.  [eval()] evaluates the model before it is copied. *)
  Definition make_solver (m : Mdl) : res bsolver :=
    match ham m with
    | (m', Ret h) => Ret (BSolver m' (Some (Strategy h None)) false)
    | (_, Raise) => Raise
    end.

  (** Solver.cpp:51-65; [false] when the call raises *)
  Definition set_model (m : Mdl) (st : bsolver) : bsolver * bool :=
    match ham m with
    | (m', Raise) => (BSolver m' (b_strat st) false, false)
    | (m', Ret h) =>
      match b_strat st with
      | Some t => if same_type (t_ham t) h
                  then (BSolver m' (Some (Strategy h (t_res t))) false, true)
                  else (BSolver m' (Some (Strategy h None)) false, true)
      | None => (BSolver m' (Some (Strategy h None)) false, true)
      end
    end.

  (** Solver.cpp:67-76 *)
  Definition solve (st : bsolver) : bsolver * outcome unit :=
    if b_solved st then (st, Ok tt)
    else match b_strat st with
         | None => (st, UB)
         | Some t => match solve_for (t_ham t) with
                     | Ret v => (BSolver (b_model st) (Some (Strategy (t_ham t) (Some v))) true, Ok tt)
                     | Raise => (st, Throw)
                     end
         end.

  (** Solver.cpp:78-86: eigenvalues and eigenvectors, [V] holds both *)
  Definition values (st : bsolver) : bsolver * outcome V :=
    let r := solve st in
    (fst r, obind (snd r) (fun _ => match b_strat (fst r) with
                                    | Some t => match t_res t with Some v => Ok v | None => UB end
                                    | None => UB end)).

  (** pybinding/solver.py:36-46, 66-100 with the bindings of cppmodule/src/solver.cpp *)
  Definition bstep (st : bsolver) (o : sop) : bsolver :=
    match o with
    | SetModel m => fst (set_model m st)
    | SetWave f => BSolver (f (b_model st)) (b_strat st) false
    | Edit f => BSolver (f (b_model st)) (b_strat st) (b_solved st)
    | Clear => BSolver (b_model st) (b_strat st) false
    | Solve => fst (solve st)
    end.

  (** ** _SolverPythonImpl: pybinding/solver.py:336-393.  An empty result counts as not computed,
      [nonempty] tells which are not. *)
  Variable nonempty : V -> bool.
  Record psolver := PSolver { p_model : Mdl; p_vals : option V }.
  Definition psolve (st : psolver) : psolver * outcome V :=
    match p_vals st with
    | Some v => if nonempty v then (st, Ok v)
                else match ham (p_model st) with
                     | (m', Ret h) => match solve_for h with Ret v' => (PSolver m' (Some v'), Ok v') | Raise => (PSolver m' (Some v), Throw) end
                     | (m', Raise) => (PSolver m' (Some v), Throw)
                     end
    | None => match ham (p_model st) with
              | (m', Ret h) => match solve_for h with Ret v' => (PSolver m' (Some v'), Ok v') | Raise => (PSolver m' None, Throw) end
              | (m', Raise) => (PSolver m' None, Throw)
              end
    end.
  Definition pstep (st : psolver) (o : sop) : psolver :=
    match o with
    | SetModel m => PSolver m None
    | SetWave f => PSolver (f (p_model st)) None
    | Edit f => PSolver (f (p_model st)) (p_vals st)
    | Clear => PSolver (p_model st) None
    | Solve => fst (psolve st)
    end.

  (** ** KPM: KPM.cpp:7-13.  [k_core] is the matrix of the calculation core.  [Clear] and [Solve]
      do not exist; every query computes from the core. *)
  Record ksolver := KSolver { k_model : Mdl; k_core : H }.
  Definition make_kpm (m : Mdl) : res ksolver :=
    match ham m with (m', Ret h) => Ret (KSolver m' h) | (_, Raise) => Raise end.
  Definition kstep (st : ksolver) (o : sop) : ksolver :=
    match o with
    | SetModel m => match ham m with (m', Ret h) => KSolver m' h | (m', Raise) => KSolver m' (k_core st) end
    | SetWave f | Edit f => KSolver (f (k_model st)) (k_core st)
    | Clear | Solve => st
    end.
  Definition kvalues (st : ksolver) : outcome V := match solve_for (k_core st) with Ret v => Ok v | Raise => Throw end.

  (** ** What an answer should be: that of the Hamiltonian of the model the object shows. *)
  Definition expected (m : Mdl) : outcome V :=
    match snd (ham m) with
    | Ret h => match solve_for h with Ret v => Ok v | Raise => Throw end
    | Raise => Throw
    end.
End Solver.
Arguments SetModel {Mdl}. Arguments SetWave {Mdl}. Arguments Edit {Mdl}. Arguments Clear {Mdl}. Arguments Solve {Mdl}.
Arguments Strategy {H V}. Arguments t_ham {H V}. Arguments t_res {H V}.
Arguments BSolver {Mdl H V}. Arguments b_model {Mdl H V}. Arguments b_strat {Mdl H V}. Arguments b_solved {Mdl H V}.
Arguments PSolver {Mdl V}. Arguments p_model {Mdl V}. Arguments p_vals {Mdl V}.
Arguments KSolver {Mdl H}. Arguments k_model {Mdl H}. Arguments k_core {Mdl H}.
