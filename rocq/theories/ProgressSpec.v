(* Specification for the progress bar: what a terminal shows, and what should be shown. *)
From Verif Require Import Base ProgressBar.

(** Text without line breaks, and text made of whole lines *)
Definition plain (t : text) : Prop := ~ In nl t /\ ~ In cr t.
Definition unlines (ls : list text) : text := concat (map (fun l => l ++ [nl]) ls).
Definition whole_lines (t : text) : Prop := exists ls, Forall plain ls /\ t = unlines ls.

(** A terminal without wrapping: finished lines, the current line and the column of the cursor.
    A line break ends the current line, a carriage return moves the cursor to its beginning,
    anything else replaces the character under the cursor. *)
Definition display := (list text * text * nat)%type.
Definition draw (d : display) (c : ascii) : display :=
  let '(done, cur, col) := d in
  if Ascii.eqb c nl then (done ++ [cur], [], 0)
  else if Ascii.eqb c cr then (done, cur, 0)
  else (done, firstn col cur ++ [c] ++ skipn (S col) cur, S col).
Definition drawn (t : text) : display := fold_left draw t ([], [], 0).
Definition screen (t : text) : list text := let '(done, cur, _) := drawn t in done ++ [cur].

(** Lines that look the same: blanks at the end do not show. *)
Fixpoint rstrip (t : text) : text :=
  match t with
  | [] => []
  | c :: r => match rstrip r with [] => if Ascii.eqb c blank then [] else [c] | s => c :: s end
  end.
Definition looks_like (a b : list text) : Prop := map rstrip a = map rstrip b.

(** All that a program says on one of its streams *)
Fixpoint said (err : bool) (es : list event) : text :=
  match es with
  | [] => []
  | Say b t :: r => (if Bool.eqb b err then t else []) ++ said err r
  | _ :: r => said err r
  end.
Definition last_value (es : list event) : nat := fold_left (fun v e => match e with Update n _ => n | _ => v end) es 0.
Definition says_whole_lines (es : list event) : Prop := forall b t, In (Say b t) es -> whole_lines t.

(** [c] is made of [a] and [b], each of them in its order *)
Inductive merged : text -> text -> text -> Prop :=
| merged_nil : merged [] [] []
| merged_l : forall x a b c, merged a b c -> merged (x :: a) b (x :: c)
| merged_r : forall x a b c, merged a b c -> merged a (x :: b) (x :: c).

(** As long as the value is at most [top], the line of the bar exists, has exactly the width of the bar
    and no line breaks; and the bar is not moved further. *)
Definition fits (top width : nat) (ws : list widget) : Prop :=
  forall value el, value <= top -> exists t, make_line width ws value el = Ok t /\ length t = width /\ plain t.
Definition moves_within (top : nat) (es : list event) : Prop := forall v now, In (Update v now) es -> v <= top.
