(* The progress bar of a parameter sweep: it takes over standard output and error, shows the
   captured text above a line with the progress, and keeps a log file.

   Mirrors pybinding/utils/progressbar.py (all classes).

   Simplifications: text is a list of characters; [percentage], [elapsed] and [eta] are left open
   as functions of the state of the bar (their formats are those of Python's standard library),
   [bar] is modelled with exact quotients instead of floating-point ones; one thread; the files
   and streams accept everything that is written.  A flag next to the state tells whether an
   exception was raised; the state is the one at the time of the exception. *)
From Coq Require Export Ascii.
From Verif Require Import Base.

Definition text := list ascii.
Definition blank : ascii := " "%char.
Definition nl : ascii := "010"%char.
Definition cr : ascii := "013"%char.
Definition blanks (n : nat) : text := repeat blank n.
(** [str.ljust] *)
Definition ljust (n : nat) (fill : ascii) (t : text) : text := t ++ repeat fill (n - length t).

(** ** The line.  progressbar.py:7-34, 148-167 *)
(** A widget that is a piece of text or a function of the bar ([value] and [elapsed_seconds]), which
    may raise, or a function that also wants a width. *)
Inductive widget :=
| Fixed (f : nat -> Z -> outcome text)
| Sized (f : nat -> Z -> Z -> outcome text).
Definition label (t : text) : widget := Fixed (fun _ _ => Ok t).
(** Lines 13-18; a negative width gives neither marks nor fill. [percent] is [value / size]. *)
Definition bar (size : nat) (marker left right fill : ascii) : widget :=
  Sized (fun value _ width =>
    let w := (width - 2)%Z in
    if size =? 0 then Throw
    else Ok (left :: ljust (Z.to_nat w) fill (repeat marker (Z.to_nat (Z.quot (Z.of_nat value * w) (Z.of_nat size)))) ++ [right])).

(** Lines 149-158: pieces that are ready, and the ones that wait for a width *)
Definition semi (value : nat) (el : Z) (w : widget) : outcome (text + (Z -> outcome text)) :=
  match w with Fixed f => omap inl (f value el) | Sized f => Ok (inr (f value el)) end.
Fixpoint semis (value : nat) (el : Z) (ws : list widget) : outcome (list (text + (Z -> outcome text))) :=
  match ws with
  | [] => Ok []
  | w :: t => obind (semi value el w) (fun s => omap (cons s) (semis value el t))
  end.
Definition waiting (s : text + (Z -> outcome text)) : nat := match s with inl _ => 0 | inr _ => 1 end.
Definition ready (s : text + (Z -> outcome text)) : nat := match s with inl t => length t | inr _ => 0 end.
(** Lines 158-167 *)
Fixpoint finished (each : Z) (l : list (text + (Z -> outcome text))) : outcome text :=
  match l with
  | [] => Ok []
  | inl t :: r => omap (app t) (finished each r)
  | inr f :: r => obind (f each) (fun t => omap (app t) (finished each r))
  end.
Definition make_line (width : nat) (ws : list widget) (value : nat) (el : Z) : outcome text :=
  obind (semis value el ws) (fun l =>
    let each := Z.quot (Z.of_nat width - Z.of_nat (list_sum (map ready l))) (Z.of_nat (list_sum (map waiting l))) in
    omap (ljust width blank) (finished each l)).

(** ** Streams *)
(** What [sys.stdout] is bound to: the terminal or a [StringIO]. *)
Inductive sink := Terminal | Buffer (n : nat).
(** A file with its position. *)
Record file := File { f_text : text; f_pos : nat }.
Definition f_write (t : text) (f : file) : file :=
  File (firstn (f_pos f) (f_text f) ++ t ++ skipn (f_pos f + length t) (f_text f)) (f_pos f + length t).
Definition f_seek0 (f : file) : file := File (f_text f) 0.
Definition f_seek_end (f : file) : file := File (f_text f) (length (f_text f)).

Record state := State {
  w_out : sink; w_err : sink;            (* sys.stdout, sys.stderr *)
  w_heap : list text;                    (* the StringIO objects *)
  w_term : text;                         (* everything written to the terminal *)
  w_file : file;
  p_old_out : sink; p_old_err : sink;    (* StdCapture._old_stream of the two captures *)
  p_value : nat; p_running : bool; p_start : Z; p_last : Z
}.
Definition set_out s st := State s (w_err st) (w_heap st) (w_term st) (w_file st) (p_old_out st) (p_old_err st) (p_value st) (p_running st) (p_start st) (p_last st).
Definition set_err s st := State (w_out st) s (w_heap st) (w_term st) (w_file st) (p_old_out st) (p_old_err st) (p_value st) (p_running st) (p_start st) (p_last st).
Definition set_heap h st := State (w_out st) (w_err st) h (w_term st) (w_file st) (p_old_out st) (p_old_err st) (p_value st) (p_running st) (p_start st) (p_last st).
Definition to_term t st := State (w_out st) (w_err st) (w_heap st) (w_term st ++ t) (w_file st) (p_old_out st) (p_old_err st) (p_value st) (p_running st) (p_start st) (p_last st).
Definition on_file g st := State (w_out st) (w_err st) (w_heap st) (w_term st) (g (w_file st)) (p_old_out st) (p_old_err st) (p_value st) (p_running st) (p_start st) (p_last st).
Definition set_old o e st := State (w_out st) (w_err st) (w_heap st) (w_term st) (w_file st) o e (p_value st) (p_running st) (p_start st) (p_last st).
Definition set_bar v r st := State (w_out st) (w_err st) (w_heap st) (w_term st) (w_file st) (p_old_out st) (p_old_err st) v r (p_start st) (p_last st).
Definition set_times a b st := State (w_out st) (w_err st) (w_heap st) (w_term st) (w_file st) (p_old_out st) (p_old_err st) (p_value st) (p_running st) a b.

(** [print] to a stream *)
Definition say_to (s : sink) (t : text) (st : state) : state :=
  match s with
  | Terminal => to_term t st
  | Buffer n => set_heap (upd (w_heap st) n (nth n (w_heap st) [] ++ t)) st
  end.

(** ** Captures.  progressbar.py:37-52 *)
Definition cap_start (st : state) : state :=
  let st := set_old (w_out st) (w_err st) st in
  let n := length (w_heap st) in
  set_err (Buffer (S n)) (set_out (Buffer n) (set_heap (w_heap st ++ [[]; []]) st)).
(** [get] of both captures: the text of stdout, then that of stderr; the terminal has no [getvalue]. *)
Definition cap_get (st : state) : option (text * text * state) :=
  match w_out st, w_err st with
  | Buffer o, Buffer e =>
      let n := length (w_heap st) in
      Some (nth o (w_heap st) [], nth e (w_heap st) [],
            set_err (Buffer (S n)) (set_out (Buffer n) (set_heap (w_heap st ++ [[]; []]) st)))
  | _, _ => None
  end.
Definition cap_stop (st : state) : state := set_err (p_old_err st) (set_out (p_old_out st) st).

(** ** The bar.  progressbar.py:55-223 *)
Section Bar.
  Variable width : nat.
  Variable ws : list widget.
  (** [stream=...] and [filename=...] *)
  Variable has_stream has_file : bool.

  Definition if_stream (g : state -> state) (st : state) : state := if has_stream then g st else st.
  Definition if_file (g : state -> state) (st : state) : state := if has_file then g st else st.

  (** Lines 60-61 (nothing is written) and 82-86 *)
  Definition outputs_start : state -> state :=
    if_file (on_file (fun f => f_seek_end (f_write (blanks width ++ [nl]) (f_seek0 f)))).
  Definition clear_pbar : state -> state := if_stream (to_term ([cr] ++ blanks width ++ [cr])).
  Definition write (t : text) (st : state) : state := if_file (on_file (f_write t)) (if_stream (to_term t) st).
  Definition write_pbar (t : text) (st : state) : state :=
    if_file (on_file (fun f => f_seek_end (f_write (t ++ [nl]) (f_seek0 f)))) (if_stream (to_term (cr :: t)) st).
  (** Lines 74-75; closing the file is not modelled *)
  Definition outputs_stop : state -> state := if_stream (to_term [nl]).

  (** Lines 193-203.  The writes to the two outputs are independent of each other, so they are made
      side by side here; without outputs the line is not made. *)
  Definition refresh (st : state) : state * bool :=
    let st := clear_pbar st in
    match cap_get st with
    | None => (st, true)
    | Some (o, e, st) =>
        let st := write e (write o st) in
        if has_stream || has_file
        then match make_line width ws (p_value st) (p_last st - p_start st)%Z with
             | Ok t => (write_pbar t st, false)
             | _ => (st, true)
             end
        else (st, false)
    end.
  (** Lines 169-180 *)
  Definition start (now : Z) (st : state) : state * bool :=
    refresh (set_times now now (outputs_start (cap_start (set_bar 0 true st)))).
  (** Lines 182-191 *)
  Definition update (value : nat) (now : Z) (st : state) : state * bool :=
    let '(st, raised) := if p_running st then (st, false) else start now st in
    if raised then (st, true)
    else if p_value st =? value then (st, false)
    else refresh (set_times (p_start st) now (set_bar value (p_running st) st)).
  (** Lines 205-216 *)
  Definition stop (st : state) : state * bool :=
    if negb (p_running st) then (st, false)
    else let '(st, raised) := refresh st in
         if raised then (st, true)
         else let st := outputs_stop (cap_stop st) in (set_bar (p_value st) false st, false).

  (** What the program does while the bar is shown *)
  Inductive event :=
  | Say (err : bool) (t : text)
  | Update (value : nat) (now : Z)   (* also [pbar += n] *)
  | Refresh.
  Definition happen (st : state) (e : event) : state * bool :=
    match e with
    | Say err t => (say_to (if err then w_err st else w_out st) t st, false)
    | Update v now => update v now st
    | Refresh => refresh st
    end.
  Fixpoint happenings (st : state) (es : list event) : state * bool :=
    match es with
    | [] => (st, false)
    | e :: r => let '(st, raised) := happen st e in if raised then (st, true) else happenings st r
    end.
  (** [with pbar: ...].  Lines 138-142: when the body raises, the bar is stopped all the same; when
      [start] raises, the body and [__exit__] are not run.  The flag tells whether the bar raised. *)
  Definition with_pbar (now : Z) (es : list event) (st : state) : state * bool :=
    let '(st, raised) := start now st in
    if raised then (st, true)
    else let '(st, raised) := happenings st es in
         let '(st, raised') := stop st in (st, raised || raised').
End Bar.

(** A new bar: nothing captured, an empty file *)
Definition fresh : state := State Terminal Terminal [] [] (File [] 0) Terminal Terminal 0 false 0 0.

(** ** The default bar.  progressbar.py:126-128 with the formats left open *)
Definition default_widgets (size : nat) (progress slash : text) (percentage elapsed eta : nat -> Z -> outcome text) : list widget :=
  [label progress; Fixed percentage; label [blank]; bar size "/"%char "["%char "]"%char blank; label [blank]; Fixed elapsed; label slash; Fixed eta].
