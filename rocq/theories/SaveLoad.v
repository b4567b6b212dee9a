(* Model of pybinding/support/pickle.py: the file that is written and the one that is read, and the
   state of a class with the decorator [pickleable]. *)
From Coq Require Import String Ascii.
From Verif Require Import Base.
Local Notation len := Datatypes.length.
Local Open Scope list_scope.

(** A character string as a list.  POSIX paths, CPython's pathlib before 3.14. *)
Definition chars := list ascii.
Definition dot : ascii := "."%char.
Definition slash : ascii := "/"%char.
Definition chars_eqb (a b : chars) : bool := if list_eq_dec ascii_dec a b then true else false.

(** The parts between the slashes *)
Fixpoint split_from (acc : chars) (s : chars) : list chars :=
  match s with
  | [] => [acc]
  | c :: t => if ascii_dec c slash then acc :: split_from [] t else split_from (acc ++ [c]) t
  end.
Definition split (s : chars) : list chars := split_from [] s.
Definition absolute (s : chars) : bool :=
  match s with c :: _ => if ascii_dec c slash then true else false | [] => false end.

(** pathlib.Path(file): the root, and the parts that are neither empty nor "." *)
Record path := Path { pa_root : bool; pa_parts : list chars }.
Definition part_ok (p : chars) : bool := negb (chars_eqb p []) && negb (chars_eqb p [dot]).
Definition to_path (s : chars) : path := Path (absolute s) (filter part_ok (split s)).

(** Path.name: the last part; Path.suffix: from the last dot on, unless this dot is the first or
    the last character *)
Definition pa_name (p : path) : chars := last (pa_parts p) [].
Fixpoint rfind_from (i : nat) (s : chars) (found : option nat) : option nat :=
  match s with [] => found | c :: t => rfind_from (S i) t (if ascii_dec c dot then Some i else found) end.
Definition suffix (p : path) : chars :=
  match rfind_from 0 (pa_name p) None with
  | Some i => if (0 <? i) && (i <? len (pa_name p) - 1) then skipn i (pa_name p) else []
  | None => []
  end.

(** str(path) *)
Fixpoint join (l : list chars) : chars :=
  match l with [] => [] | [x] => x | x :: t => x ++ slash :: join t end.
Definition str_path (p : path) : chars :=
  match (if pa_root p then [slash] else []) ++ join (pa_parts p) with [] => [dot] | s => s end.

(** path.with_suffix(".pbz") of a path without suffix: ValueError without a name *)
Definition pbz : chars := list_ascii_of_string ".pbz".
Definition with_pbz (p : path) : outcome path :=
  match pa_parts p with
  | [] => Throw
  | _ => Ok (Path (pa_root p) (removelast (pa_parts p) ++ [pa_name p ++ pbz]))
  end.

(** pickle.py:20-37 [_add_extension] of a string *)
Definition add_extension (s : chars) : outcome chars :=
  match suffix (to_path s) with
  | [] => omap str_path (with_pbz (to_path s))
  | _ => Ok s
  end.

Section Files.
  Variable content : Type.
  (** A file system: what a path names.  Simplifications: links and ".." are not followed, the working
      directory stays the same and the directories on the way exist. *)
  Inductive node := File (c : content) | Dir.
  Definition fs := path -> option node.
  Definition path_eqb (a b : path) : bool :=
    Bool.eqb (pa_root a) (pa_root b) && (if list_eq_dec (list_eq_dec ascii_dec) (pa_parts a) (pa_parts b) then true else false).

  (** A string that ends with a slash, or in a part ".", names a directory only. *)
  Definition dir_only (s : chars) : bool := negb (part_ok (last (split s) [])).
  (** os.path.exists; the empty string names nothing *)
  Definition exists_ (d : fs) (s : chars) : bool :=
    negb (chars_eqb s []) &&
    match d (to_path s) with Some (File _) => negb (dir_only s) | Some Dir => true | None => false end.
  (** open(file, "wb"), open(file, "rb") *)
  Definition write (d : fs) (s : chars) (c : content) : outcome fs :=
    if chars_eqb s [] || dir_only s then Throw
    else match d (to_path s) with
         | Some Dir => Throw
         | _ => Ok (fun p => if path_eqb p (to_path s) then Some (File c) else d p)
         end.
  Definition read (d : fs) (s : chars) : outcome content :=
    if chars_eqb s [] || dir_only s then Throw
    else match d (to_path s) with Some (File c) => Ok c | _ => Throw end.

  (** pickle.py:40-56, 59-75, for a string or a path object, which [_normalize] turns into a string.
      [c] stands for the compressed pickle of the object. *)
  Definition save (d : fs) (c : content) (file : chars) : outcome fs :=
    obind (add_extension file) (fun f => write d f c).
  Definition load (d : fs) (file : chars) : outcome content :=
    obind (add_extension file) (fun ext =>
    read d (if negb (exists_ d file) && exists_ d ext then ext else file)).
End Files.

Section Pickleable.
  Variable V : Type.
  Variable version : Z.
  (** The names in [props] *)
  Variable props : list chars.

  (** [__dict__] of an object: attributes, and properties that are read and set by getattr and setattr *)
  Definition attrs := list (chars * V).
  Definition lookup (d : attrs) (n : chars) : option V :=
    match find (fun p => chars_eqb (fst p) n) d with Some p => Some (snd p) | None => None end.
  (** dict.update: the later value replaces the earlier one *)
  Definition set_item (d : attrs) (n : chars) (v : V) : attrs :=
    if existsb (fun p => chars_eqb (fst p) n) d
    then map (fun p => if chars_eqb (fst p) n then (fst p, v) else p) d
    else d ++ [(n, v)].
  Definition update (d new : attrs) : attrs := fold_left (fun a p => set_item a (fst p) (snd p)) new d.

  (** A state: with a version, or the plain [__dict__] of an older release *)
  Inductive state :=
  | Versioned (v : Z) (dict : attrs) (pr : option attrs)
  | Plain (dict : attrs).

  (** getattr on the object *)
  Variable getattr : attrs -> chars -> outcome V.

  (** pickle.py:82-86 *)
  Definition getstate (self : attrs) : outcome state :=
    match props with
    | [] => Ok (Versioned version self None)
    | _ => omap (fun p => Versioned version self (Some p))
                (ofold (fun acc n => omap (fun v => acc ++ [(n, v)]) (getattr self n)) props [])
    end.

  (** pickle.py:88-102.  [for name, value in dict] unpacks each key: a key that does not consist of
      two characters raises ValueError, and the second loop unpacks the first of them again. *)
  Definition setstate (self : attrs) (s : state) : outcome attrs :=
    match s with
    | Plain d => Ok (update self d)
    | Versioned v d pr =>
        if negb (v =? version)%Z then Throw
        else let self := update self d in
             obind (ofold (fun acc p =>
                      match fst p with
                      | [a; _] => Ok (if existsb (chars_eqb [a]) props then acc ++ [[a]] else acc)
                      | _ => Throw
                      end) (match pr with Some p => p | None => [] end) []) (fun names =>
             match names with [] => Ok self | _ :: _ => Throw end)
    end.
End Pickleable.
Arguments File {content}. Arguments Dir {content}.
