(* Model of the Python method Model.add: pybinding/model.py, with the overloads of cppmodule/src/model.cpp:8-16.
   The state of the C++ model and its [add] are left abstract (C20, C48). *)
From Verif Require Import Base.

Inductive exc := TypeError | RuntimeError | OtherError (n : nat).

Section Add.
  Context {S P : Type}.
  (** C++ [Model.add] with a parameter of a known class: new state, and whether it threw.  pybind raises
      TypeError only if no overload fits, so it does not for these. *)
  Variable cpp_add : S -> P -> S * option nat.
  Variable is_shape : P -> bool.

  (** An argument: [None], a parameter of one of the classes that C++ knows, a tuple or list, or an object of
      another class that cannot be iterated over. *)
  Inductive arg := ANone | AParam (p : P) | ASeq (l : list arg) | AForeign.

  (** Python object: C++ state and the attribute [_shape] *)
  Record pymodel := PyModel { pm_state : S; pm_shape : option P }.

  (** model.py:58-60 in the [except] branch: [super().add(arg)] and [_shape] *)
  Definition add_param (m : pymodel) (p : P) : pymodel * option exc :=
    match cpp_add (pm_state m) p with
    | (s, Some n) => (PyModel s (pm_shape m), Some (OtherError n))
    | (s, None) => (PyModel s (if is_shape p then Some p else pm_shape m), None)
    end.

  (** model.py:51-60, one pass of the loop.  [self.add( *arg)] raises TypeError for what cannot be iterated over;
      a TypeError from within the recursive call is caught too, and then [super().add(arg)] gets the list, for
      which no overload fits. *)
  Fixpoint add_arg (m : pymodel) (a : arg) : pymodel * option exc :=
    match a with
    | ANone => (m, Some RuntimeError)
    | AParam p => add_param m p
    | AForeign => (m, Some TypeError)
    | ASeq l =>
        let r := (fix add_args (m : pymodel) (l : list arg) : pymodel * option exc :=
          match l with
          | [] => (m, None)
          | x :: t => match add_arg m x with (m', None) => add_args m' t | r => r end
          end) m l in
        match r with (m', Some TypeError) => (m', Some TypeError) | r => r end
    end.
  (** model.py:42-60 [add( *args)] *)
  Fixpoint add (m : pymodel) (l : list arg) : pymodel * option exc :=
    match l with
    | [] => (m, None)
    | x :: t => match add_arg m x with (m', None) => add m' t | r => r end
    end.
End Add.
