(* Model of pybinding/support/structure.py and of the indexing of Structure and StructureMap in
   pybinding/results.py.  Numpy and scipy are modelled by what they return; see DESIGN.md section 3. *)
From Verif Require Import Base AliasNames.
From Coq Require Import QArith String.
Local Open Scope nat_scope.

(** An index, "same rules as numpy indexing" (results.py:537): a boolean mask, an array of integers, or a
    [slice].  An index with a single integer does the same as an array of one integer here: every result
    goes through [np.atleast_1d] (structure.py:155-157) or stays a two-dimensional matrix. *)
Inductive index : Type :=
| Mask (bs : list bool)
| Ints (zs : list Z)
| Slice (start stop : option Z) (step : Z).

Fixpoint true_positions (i : nat) (bs : list bool) : list nat :=
  match bs with [] => [] | b :: t => if b then i :: true_positions (S i) t else true_positions (S i) t end.

(** numpy: a negative number counts from the end, anything out of range is an [IndexError] *)
Definition norm_int (n : nat) (z : Z) : outcome nat :=
  if ((0 <=? z) && (z <? Z.of_nat n))%Z then Ok (Z.to_nat z)
  else if ((- Z.of_nat n <=? z) && (z <? 0))%Z then Ok (Z.to_nat (z + Z.of_nat n)) else Throw.

Fixpoint norm_ints (n : nat) (zs : list Z) : outcome (list nat) :=
  match zs with [] => Ok [] | z :: t => obind (norm_int n z) (fun i => omap (cons i) (norm_ints n t)) end.

(** CPython [PySlice_AdjustIndices]: clamp one end of the slice *)
Definition clamp (n : nat) (step z : Z) : Z :=
  (if (z <? 0)%Z then (if (z + Z.of_nat n <? 0)%Z then (if (step <? 0)%Z then -1 else 0) else z + Z.of_nat n)
   else if (Z.of_nat n <=? z)%Z then (if (step <? 0)%Z then Z.of_nat n - 1 else Z.of_nat n) else z)%Z.

Definition slice_indices (n : nat) (start stop : option Z) (step : Z) : outcome (list nat) :=
  if (step =? 0)%Z then Throw else
  let a := match start with Some z => clamp n step z | None => (if (step <? 0) then Z.of_nat n - 1 else 0)%Z end in
  let b := match stop with Some z => clamp n step z | None => (if (step <? 0) then -1 else Z.of_nat n)%Z end in
  let len := (if (step <? 0) then (if (b <? a) then (a - b - 1) / (- step) + 1 else 0)
              else (if (a <? b) then (b - a - 1) / step + 1 else 0))%Z in
  Ok (map (fun k => Z.to_nat (a + Z.of_nat k * step)) (seq 0 (Z.to_nat len))).

(** The positions that an index selects from an array of [n] elements, or an exception *)
Definition resolve (n : nat) (idx : index) : outcome (list nat) :=
  match idx with
  | Mask bs => if Nat.eqb (Datatypes.length bs) n then Ok (true_positions 0 bs) else Throw
  | Ints zs => norm_ints n zs
  | Slice a b s => slice_indices n a b s
  end.

Section Arrays.
  Context {A : Type}.

  Fixpoint pick (l : list A) (ks : list nat) : list A :=
    match ks with [] => [] | k :: t => match nth_error l k with Some x => x :: pick l t | None => pick l t end end.

  (** [v[item]] *)
  Definition array_get (l : list A) (idx : index) : outcome (list A) :=
    omap (pick l) (resolve (Datatypes.length l) idx).
End Arrays.

(** A CSR matrix of hopping ids: the columns and ids of every row, and the number of columns *)
Record csr := { c_rows : list (list (nat * Z)); c_cols : nat }.

Fixpoint positions_of (i c : nat) (ks : list nat) : list nat :=
  match ks with [] => [] | k :: t => if Nat.eqb k c then i :: positions_of (S i) c t else positions_of (S i) c t end.

(** scipy may drop stored zeros when it takes rows or columns (older versions do it with a matrix
    product); [drop] says whether it does.  structure.py:15 is written for that. *)
Definition scipy_drop (drop : bool) (row : list (nat * Z)) : list (nat * Z) :=
  if drop then filter (fun e => negb (snd e =? 0)%Z) row else row.

(** [m[idx]] *)
Definition scipy_rows (drop : bool) (m : csr) (idx : index) : outcome csr :=
  omap (fun ks => {| c_rows := map (scipy_drop drop) (pick (c_rows m) ks); c_cols := c_cols m |})
       (resolve (Datatypes.length (c_rows m)) idx).

Definition row_columns (ks : list nat) (row : list (nat * Z)) : list (nat * Z) :=
  flat_map (fun e => map (fun k => (k, snd e)) (positions_of 0 (fst e) ks)) row.

(** [m[:, idx]] *)
Definition scipy_cols (drop : bool) (m : csr) (idx : index) : outcome csr :=
  omap (fun ks => {| c_rows := map (fun r => scipy_drop drop (row_columns ks r)) (c_rows m); c_cols := Datatypes.length ks |})
       (resolve (c_cols m) idx).

Definition map_data (f : Z -> Z) (m : csr) : csr :=
  {| c_rows := map (map (fun e => (fst e, f (snd e)))) (c_rows m); c_cols := c_cols m |}.

(** structure.py:9-18 [_slice_csr_matrix] *)
Definition slice_csr (drop : bool) (m : csr) (idx : index) : outcome csr :=
  omap (map_data (fun h => h - 1)%Z)
       (obind (scipy_rows drop (map_data (fun h => h + 1)%Z m) idx) (fun r => scipy_cols drop r idx)).

(** structure.py:151-176 [Sites], system.py:22-46 [_CppSites]: [s_ids] is [None] if no ids were given.
    The names are the mapping of the [AliasArray] of the ids, kept by indexing (alias.py:39-42). *)
Record sites := { s_x : list Q; s_y : list Q; s_z : list Q; s_ids : option (list nat); s_names : mapping }.

(** structure.py:175-176, system.py:45-46; without ids [self._ids] is an [AttributeError] *)
Definition sites_get (s : sites) (idx : index) : outcome sites :=
  obind (array_get (s_x s) idx) (fun x =>
  obind (array_get (s_y s) idx) (fun y =>
  obind (array_get (s_z s) idx) (fun z =>
  match s_ids s with
  | None => Throw
  | Some l => omap (fun i => {| s_x := x; s_y := y; s_z := z; s_ids := Some i; s_names := s_names s |}) (array_get l idx)
  end))).

(** structure.py:224-243 [Boundary] *)
Record boundary := { b_shift : Q * Q * Q; b_hops : csr }.

Definition boundary_get (drop : bool) (idx : index) (b : boundary) : outcome boundary :=
  omap (fun m => {| b_shift := b_shift b; b_hops := m |}) (slice_csr drop (b_hops b) idx).

Fixpoint omap_list {A B} (f : A -> outcome B) (l : list A) : outcome (list B) :=
  match l with [] => Ok [] | a :: t => obind (f a) (fun b => omap (cons b) (omap_list f t)) end.

(** results.py:481-484 [Structure], and :390-393 [StructureMap] with its data *)
Record structure := { t_sites : sites; t_hops : csr; t_bounds : list boundary }.

(** results.py:536-545 [Structure.__getitem__] with an index *)
Definition structure_get (drop : bool) (s : structure) (idx : index) : outcome structure :=
  obind (sites_get (t_sites s) idx) (fun st =>
  obind (slice_csr drop (t_hops s) idx) (fun h =>
  omap (fun bs => {| t_sites := st; t_hops := h; t_bounds := bs |}) (omap_list (boundary_get drop idx) (t_bounds s)))).

(** results.py:410-415 [StructureMap.__getitem__] with an index; the constructor raises if the sizes differ
    (results.py:227-228) *)
Definition map_get {D} (drop : bool) (data : list D) (s : structure) (idx : index) : outcome (list D * structure) :=
  obind (array_get data idx) (fun d =>
  obind (structure_get drop s idx) (fun t =>
  if Nat.eqb (Datatypes.length (s_x (t_sites t))) (Datatypes.length d) then Ok (d, t) else Throw)).

(** The positions of the sites as the shape sees them, one after another *)
Definition site_positions (s : sites) : list (Q * Q * Q) := combine (combine (s_x s) (s_y s)) (s_z s).

(** results.py:538-539: a [Shape] as index; [contains] is applied to whole arrays and answers for every
    position *)
Definition shape_index (contains : Q * Q * Q -> bool) (s : structure) : index := Mask (map contains (site_positions (t_sites s))).

(** results.py:20-27 [_make_crop_indices]: attributes x, y, z with limits *)
Inductive axis := AX | AY | AZ.
Definition attr (s : sites) (a : axis) : list Q := match a with AX => s_x s | AY => s_y s | AZ => s_z s end.

Definition and_lists (l r : list bool) : list bool := map (fun p => andb (fst p) (snd p)) (combine l r).

Definition Qltb (a b : Q) : bool := negb (Qle_bool b a).

Definition crop_indices (s : sites) (limits : list (axis * (Q * Q))) : list bool :=
  fold_left (fun idx l =>
    let v := attr s (fst l) in
    let idx1 := and_lists idx (map (fun x => Qle_bool (fst (snd l)) x) v) in
    and_lists idx1 (map (fun x => Qltb x (snd (snd l))) v))
    limits (repeat true (Datatypes.length (s_x s))).

(** results.py:563-577 [cropped] *)
Definition cropped (drop : bool) (s : structure) (limits : list (axis * (Q * Q))) : outcome structure :=
  structure_get drop s (Mask (crop_indices (t_sites s) limits)).

(* ------------------------------------------------------------------ *)
(* Searching *)

(** structure.py:78-94 [distances]: only the first [len(target)] coordinates count.  The model keeps the
    squares: [np.linalg.norm] takes the root of the same sum, which does not change the order.  An empty
    target or one with more than three numbers raises ([np.stack], broadcasting). *)
Definition sq (x : Q) : Q := (x * x)%Q.

Definition distance2 (target : list Q) (p : Q * Q * Q) : Q :=
  match p with (x, y, z) =>
    fold_right Qplus 0%Q (map (fun ct => sq (fst ct - snd ct)%Q) (combine [x; y; z] target)) end.

Definition distances2 (target : list Q) (s : sites) : outcome (list Q) :=
  match target with
  | [] => Throw
  | [_] | [_; _] | [_; _; _] => Ok (map (distance2 target) (site_positions s))
  | _ => Throw
  end.

(** Which family was asked for: [""], a number, or a name *)
Inductive family := FAny | FNum (n : nat) | FName (s : string).

(** [self.ids != target_site_family]; without ids every site has the id 0 (structure.py:171-173) *)
Definition site_ids (s : sites) : list nat :=
  match s_ids s with Some l => l | None => repeat 0 (Datatypes.length (s_x s)) end.

Definition masked_out (s : sites) (f : family) : list bool :=
  match f with
  | FAny => map (fun _ => false) (site_ids s)
  | FNum n => map (fun i => negb (Nat.eqb i n)) (site_ids s)
  | FName x => array_ne (s_names s) (site_ids s) x
  end.

(** A masked array is filled with +infinity ([None]) for [argmin] and [argsort] *)
Definition filled (d : list Q) (m : list bool) : list (option Q) :=
  map (fun p => if snd p : bool then None else Some (fst p)) (combine d m).

Definition olt (a b : option Q) : bool :=
  match a, b with Some x, Some y => Qltb x y | Some _, None => true | None, _ => false end.

(** [np.argmin]: the first position of the smallest value; of an empty array an exception *)
Fixpoint argmin_from (best : nat) (bv : option Q) (i : nat) (l : list (option Q)) : nat :=
  match l with
  | [] => best
  | v :: t => if olt v bv then argmin_from i v (S i) t else argmin_from best bv (S i) t
  end.

Definition argmin (l : list (option Q)) : outcome nat :=
  match l with [] => Throw | v :: t => Ok (argmin_from 0 v 1 t) end.

(** structure.py:96-121 [find_nearest] *)
Definition structure_nearest (s : sites) (target : list Q) (f : family) : outcome nat :=
  obind (distances2 target s) (fun d => argmin (filled d (masked_out s f))).
