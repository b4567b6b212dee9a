(* Compressed sparse rows as three flat arrays: building and visiting them.

   Mirrors cppcore/include/numeric/sparse.hpp:22-29 (csrref), 31-74 (CompressedInserter), 98-176 (sparse::Loop),
   178-191 (max_nnz_per_row), numeric/sparseref.hpp:38-47 (AnyCsrConstRef) and cppmodule/include/cast.hpp:112-124
   (csrref_caster), with scipy's reading of the three arrays.

   Reading or writing outside of an array, or reading a cell nobody wrote, is UB.  A function given to a loop
   is modelled by the list of its calls.  Simplifications: indices do not overflow int; the matrix is
   compressed, as all matrices in the project which are passed to these functions. *)
From Verif Require Import Base.

Section Csr.
  Variable A : Type.
  Record csr := Csr { ptr : list nat; ind : list nat; dat : list A }.
  Definition outer_size (m : csr) : nat := length (ptr m) - 1.
  Definition cell (m : csr) (i : nat) : outcome (nat * A) := obind (aget (ind m) i) (fun c => omap (pair c) (aget (dat m) i)).

  (** ** Loops *)
  (** sparse.hpp:108-115; calls (outer, inner, value) *)
  Definition for_each (m : csr) : outcome (list (nat * nat * A)) :=
    ofold (fun log o =>
      obind (aget (ptr m) o) (fun a => obind (aget (ptr m) (o + 1)) (fun b =>
      ofold (fun log i => omap (fun e => log ++ [(o, fst e, snd e)]) (cell m i)) (seq a (b - a)) log)))
    (seq 0 (outer_size m)) [].
  (** sparse.hpp:145-150 *)
  Definition for_each_in_row (m : csr) (o : nat) : outcome (list (nat * A)) :=
    obind (aget (ptr m) o) (fun a => obind (aget (ptr m) (o + 1)) (fun b =>
    ofold (fun log i => omap (fun e => log ++ [e]) (cell m i)) (seq a (b - a)) [])).
  (** sparse.hpp:121-141 *)
  Inductive call := Visit (o c : nat) (v : A) (n : nat) | Process (o i n : nat).
  Record bstate := BState { b_n : nat; b_outer : nat; b_idx : nat; b_log : list call }.
  Definition buffer_step (m : csr) (size o : nat) (s : bstate) (i : nat) : outcome bstate :=
    let s := if b_n s =? size then BState 0 o i (b_log s ++ [Process (b_outer s) (b_idx s) size]) else s in
    omap (fun e => BState (S (b_n s)) (b_outer s) (b_idx s) (b_log s ++ [Visit o (fst e) (snd e) (b_n s)])) (cell m i).
  Definition buffered_for_each (m : csr) (size : nat) : outcome (list call) :=
    obind (aget (ptr m) 0) (fun p0 =>
    omap (fun s => b_log s ++ [Process (b_outer s) (b_idx s) (b_n s)])
    (ofold (fun s o =>
      obind (aget (ptr m) o) (fun a => obind (aget (ptr m) (o + 1)) (fun b => ofold (buffer_step m size o) (seq a (b - a)) s)))
     (seq 0 (outer_size m)) (BState 0 0 p0 []))).
  (** sparse.hpp:155-166; [None]: returned *)
  Definition sstate : Type := option nat * list (nat * nat * A * nat).
  Definition slice_step (m : csr) (size o : nat) (s : sstate) (i : nat) : outcome sstate :=
    match fst s with
    | None => Ok s
    | Some n => if n =? size then Ok (None, snd s) else omap (fun e => (Some (S n), snd s ++ [(o, fst e, snd e, n)])) (cell m i)
    end.
  Definition slice_for_each (m : csr) (o i size : nat) : outcome (list (nat * nat * A * nat)) :=
    omap (fun s => snd (snd s))
    (ofold (fun s o =>
      match fst (snd s) with
      | None => Ok s
      | Some _ => obind (aget (ptr m) (o + 1)) (fun b => omap (pair (Nat.max (fst s) b)) (ofold (slice_step m size o) (seq (fst s) (b - fst s)) (snd s)))
      end) (seq o (outer_size m - o)) (i, (Some 0, []))).
  (** sparse.hpp:182-191 *)
  Definition max_nnz_per_row (m : csr) : outcome nat :=
    ofold (fun max o => obind (aget (ptr m) o) (fun a => obind (aget (ptr m) (o + 1)) (fun b => Ok (if max <? b - a then b - a else max)))) (seq 0 (outer_size m)) 0.

  (** ** CompressedInserter: sparse.hpp:31-69 *)
  (** [None]: a cell which was not written.  Eigen fills the row pointers with zeros. *)
  Record inserter := Ins { i_idx : nat; i_row : nat; i_ptr : list nat; i_ind : list (option nat); i_dat : list (option A) }.
  Definition inserter_make (rows size : nat) : inserter := Ins 0 0 (repeat 0 (S rows)) (repeat None size) (repeat None size).
  Definition aset {T} (l : list T) (i : nat) (x : T) : outcome (list T) := if i <? length l then Ok (upd l i x) else UB.
  Definition written {T} (o : outcome (option T)) : outcome T := obind o (fun x => match x with Some y => Ok y | None => UB end).
  (** lines 37-39 *)
  Definition start_row (s : inserter) : outcome inserter :=
    omap (fun p => Ins (i_idx s) (S (i_row s)) p (i_ind s) (i_dat s)) (aset (i_ptr s) (i_row s) (i_idx s)).
  (** lines 41-44 *)
  Definition start_row_at (r : nat) (s : inserter) : outcome inserter := ofold (fun s _ => start_row s) (seq (i_row s) (S r - i_row s)) s.
  (** lines 46-56: move larger columns up *)
  Fixpoint shift (start column n : nat) (ix : list (option nat)) (da : list (option A)) : outcome (nat * list (option nat) * list (option A)) :=
    match n with
    | O => Ok (O, ix, da)
    | S k =>
        if start <? n then
          obind (written (aget ix k)) (fun c =>
          if column <? c then
            obind (aset ix n (Some c)) (fun ix => obind (written (aget da k)) (fun v => obind (aset da n (Some v)) (fun da => shift start column k ix da)))
          else Ok (n, ix, da))
        else Ok (n, ix, da)
    end.
  Definition insert (column : nat) (value : A) (s : inserter) : outcome inserter :=
    match i_row s with
    | O => UB
    | S r => obind (aget (i_ptr s) r) (fun start =>
             obind (shift start column (i_idx s) (i_ind s) (i_dat s)) (fun q =>
             let '(n, ix, da) := q in
             obind (aset ix n (Some column)) (fun ix => obind (aset da n (Some value)) (fun da =>
             Ok (Ins (S (i_idx s)) (i_row s) (i_ptr s) ix da)))))
    end.
  (** lines 58-63: cells are read when the matrix is used *)
  Fixpoint cells {T} (l : list (option T)) : outcome (list T) := match l with [] => Ok [] | x :: r => obind (written (Ok x)) (fun y => omap (cons y) (cells r)) end.
  Definition compress (s : inserter) : outcome csr :=
    obind (start_row_at (length (i_ptr s) - 1) s) (fun s =>
    obind (cells (firstn (i_idx s) (i_ind s))) (fun ix => obind (cells (firstn (i_idx s) (i_dat s))) (fun da => Ok (Csr (i_ptr s) ix da)))).
  (** A caller: rows in order, each opened with its number if it has elements or [open] says so. *)
  Definition fill_row (open : nat -> bool) (s : inserter) (r : nat * list (nat * A)) : outcome inserter :=
    if negb (open (fst r)) && (length (snd r) =? 0) then Ok s
    else obind (start_row_at (fst r) s) (fun s => ofold (fun s e => insert (fst e) (snd e) s) (snd r) s).
  Definition fill (open : nat -> bool) (rows : list (list (nat * A))) (size : nat) : outcome csr :=
    obind (ofold (fill_row open) (combine (seq 0 (length rows)) rows) (inserter_make (length rows) size)) compress.

  (** ** csrref and scipy.sparse.csr_matrix: data and indices have nnz elements, indptr has rows + 1 *)
  Definition scipy_row (m : csr) (nnz o : nat) : outcome (list (nat * A)) :=
    obind (aget (firstn (S (outer_size m)) (ptr m)) o) (fun a => obind (aget (firstn (S (outer_size m)) (ptr m)) (o + 1)) (fun b =>
    Ok (firstn (b - a) (skipn a (combine (firstn nnz (ind m)) (firstn nnz (dat m))))))).
End Csr.
