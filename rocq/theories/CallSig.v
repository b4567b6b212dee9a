(* Recorded calls of Python functions and the file names made from them.

   Mirrors pybinding/support/inspect.py:7-42 (CallSignature), 64-122 (get_call_signature), pybinding/parallel.py:127-133
   (Config.make_filename).

   A function is described by what inspect.signature tells about it; a frame by its local variables, which may differ
   from the arguments if the function assigned to them.  The text of a call is the list of its parts, with or without
   a name.  Finding the frame and the function object (they decide the printed name only) is not modelled. *)
From Verif Require Import Base.
From Coq Require Import String Ascii List.
Import ListNotations.

Section Sig.
  Variable V : Type.
  (** inspect.signature: positional only, positional or keyword, *args, keyword only, **kwargs, defaults *)
  Record func := Func { f_only : list string; f_pos : list string; f_args : bool; f_kwonly : list string; f_kwargs : bool; f_default : string -> option V }.
  (** frame.f_locals *)
  Record locals := Locals { l_var : string -> option V; l_args : list V; l_kwargs : list (string * V) }.
  (** inspect.py:9-15 *)
  Record callsig := CallSig { s_positional : list (string * V); s_args : list V; s_kwonly : list (string * V); s_kwargs : list (string * V) }.

  (** frame_locals[name]: KeyError if the variable was deleted *)
  Fixpoint read (l : locals) (names : list string) : outcome (list (string * V)) :=
    match names with
    | [] => Ok []
    | x :: r => match l_var l x with Some v => omap (cons (x, v)) (read l r) | None => Throw end
    end.
  (** inspect.py:108-122 *)
  Definition get_call_signature (f : func) (l : locals) : outcome callsig :=
    obind (read l (f_pos f)) (fun p =>
    let args := if f_args f then l_args l else [] in
    obind (read l (f_kwonly f)) (fun k =>
    let kwargs := if f_kwargs f then l_kwargs l else [] in
    Ok (CallSig p args k kwargs))).

  (** OrderedDict.update *)
  Fixpoint dict_set (d : list (string * V)) (k : string) (v : V) : list (string * V) :=
    match d with [] => [(k, v)] | (k', v') :: r => if String.eqb k' k then (k, v) :: r else (k', v') :: dict_set r k v end.
  Definition dict_update (d e : list (string * V)) : list (string * V) := fold_left (fun d x => dict_set d (fst x) (snd x)) e d.
  (** inspect.py:17-23 *)
  Definition named_args (s : callsig) : list (string * V) := fold_left dict_update [s_positional s; s_kwonly s; s_kwargs s] [].

  (** inspect.py:25-36 *)
  Definition named (x : string * V) : option string * V := (Some (fst x), snd x).
  Definition format_args (s : callsig) : list (option string * V) :=
    let positional := match s_args s with [] => map named (s_positional s) | _ => map (fun x => (None, snd x)) (s_positional s) end in
    positional ++ map (pair None) (s_args s) ++ map named (s_kwonly s) ++ map named (s_kwargs s).

  (** parallel.py:127-133; [str]: the text of a value *)
  Variable str : V -> string.
  Definition invalid (c : ascii) : bool := existsb (Ascii.eqb c) [" "; "/"; "."; ","]%char.
  Definition make_filename (s : callsig) : list ascii :=
    let filename := flat_map (fun x => firstn 1 (list_ascii_of_string (fst x)) ++ list_ascii_of_string (str (snd x))) (named_args s) in
    let filename := match filename with [] => list_ascii_of_string "data"%string | _ => filename end in
    filter (fun c => negb (invalid c)) filename.
End Sig.
