(* Model of the position modifier on the border of Python and C++: cppmodule/src/modifiers.cpp:86-95.
   The function gets views of the three coordinate arrays and returns three arrays.  Each of them is
   either new or one of the views.  C++ stores them one after the other, each view is read when its
   turn comes. *)
From Verif Require Import Base.

Section PositionResult.
  Context {A : Type}.

  (** An array that the function returned: new, or the view of coordinate [k] *)
  Inductive returned := Fresh (l : list A) | Live (k : nat).

  (** What the array holds, given the memory of the coordinates *)
  Definition content (mem : list (list A)) (r : returned) : list A :=
    match r with Fresh l => l | Live k => nth k mem [] end.

  (** modifiers.cpp:13-33 for coordinate [k]; a view of its own memory is left alone, which is the
      same as writing it over itself *)
  Definition store (mem : list (list A)) (k : nat) (r : returned) : outcome (list (list A)) :=
    let c := content mem r in
    if length c =? length (nth k mem []) then Ok (upd mem k c) else Throw.

  (** modifiers.cpp:91-93: x, then y, then z *)
  Definition store_all (mem : list (list A)) (rs : list returned) : outcome (list (list A)) :=
    ofold (fun m kr => store m (fst kr) (snd kr)) (combine (seq 0 (length rs)) rs) mem.
End PositionResult.
Arguments returned A : clear implicits.
