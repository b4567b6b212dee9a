(* Model of HoppingBlocks and System::remove_invalid.
   cppcore/{include,src}/system/HoppingBlocks.{hpp,cpp}, cppcore/src/system/System.cpp *)
From Verif Require Import Base Rle.

(** HoppingBlocks.hpp:15-30 [COO].  Indices are naturals: negative indices handed in by a
    user callback are represented like any other out-of-range index. *)
Notation coo := (nat * nat)%type.

Definition coo_eqb (a b : coo) : bool := Nat.eqb (fst a) (fst b) && Nat.eqb (snd a) (snd b).

(** HoppingBlocks.hpp:27-29 [operator<] (lexicographic), as [<=]. *)
Definition coo_leb (a b : coo) : bool :=
  (fst a <? fst b) || ((fst a =? fst b) && (snd a <=? snd b)).

(** HoppingBlocks.hpp:139-143; the name map is not modelled. Position in [hb_blocks] is the
    family id. *)
Record hblocks := HB { hb_n : nat; hb_blocks : list (list coo) }.

(** HoppingBlocks.hpp:99-100 constructor *)
Definition hb_new (num_sites num_families : nat) : hblocks := HB num_sites (repeat [] num_families).

(** HoppingBlocks.hpp:123-125 [add] *)
Definition hb_add (h : hblocks) (family row col : nat) : outcome hblocks :=
  obind (aget (hb_blocks h) family) (fun b =>
  Ok (HB (hb_n h) (upd (hb_blocks h) family (b ++ [(row, col)])))).

(** HoppingBlocks.cpp:19-33 [get_serialized_blocks] *)
Definition hb_serialize (h : hblocks) : list (list nat * list nat) :=
  map (fun b => (map fst b, map snd b)) (hb_blocks h).

(** HoppingBlocks.cpp:5-17 constructor from serialised data: the loop runs over
    [pair.first]; a shorter [pair.second] is read out of range. *)
Fixpoint zip_coo (rows cols : list nat) : outcome (list coo) :=
  match rows, cols with
  | [], _ => Ok []
  | r :: rs, c :: cs => omap (fun t => (r, c) :: t) (zip_coo rs cs)
  | _ :: _, [] => UB
  end.

Fixpoint osequence {A B} (f : A -> outcome B) (l : list A) : outcome (list B) :=
  match l with
  | [] => Ok []
  | a :: t => obind (f a) (fun b => omap (cons b) (osequence f t))
  end.

Definition hb_deserialize (n : nat) (data : list (list nat * list nat)) : outcome hblocks :=
  omap (HB n) (osequence (fun p => zip_coo (fst p) (snd p)) data).

(** HoppingBlocks.cpp:35-39 [nnz] *)
Definition hb_nnz (h : hblocks) : nat := fold_left (fun n b => n + length b) (hb_blocks h) 0.

(** HoppingBlocks.cpp:41-50 [count_neighbors]: [counts[i] += 1] with bounds *)
Definition incr (counts : list nat) (i : nat) : outcome (list nat) :=
  obind (aget counts i) (fun c => Ok (upd counts i (c + 1))).

Definition hb_count_neighbors (h : hblocks) : outcome (list nat) :=
  ofold (fun counts b =>
           ofold (fun counts c => obind (incr counts (fst c)) (fun counts' => incr counts' (snd c)))
                 b counts)
        (hb_blocks h) (repeat 0 (hb_n h)).

(** std::sort on COO values; any sorting algorithm gives this list because equal keys are
    equal values.  Insertion sort. *)
Fixpoint insert_coo (c : coo) (l : list coo) : list coo :=
  match l with
  | [] => [c]
  | x :: t => if coo_leb c x then c :: l else x :: insert_coo c t
  end.
Definition sort_coo (l : list coo) : list coo := fold_right insert_coo [] l.

(** std::unique + erase: drop elements equal to their predecessor *)
Fixpoint unique_coo (l : list coo) : list coo :=
  match l with
  | x :: ((y :: _) as t) => if coo_eqb x y then unique_coo t else x :: unique_coo t
  | _ => l
  end.

(** HoppingBlocks.cpp:68-73: upper triangular format *)
Definition upper (c : coo) : coo := if snd c <? fst c then (snd c, fst c) else c.

(** HoppingBlocks.cpp:59-78 [append] *)
Definition hb_append (h : hblocks) (family : nat) (rows cols : list nat) : outcome hblocks :=
  if negb (length rows =? length cols) then Throw
  else obind (aget (hb_blocks h) family) (fun b =>
       Ok (HB (hb_n h)
              (upd (hb_blocks h) family
                   (unique_coo (sort_coo (b ++ map upper (combine rows cols))))))).

(** HoppingBlocks.cpp:80-89 [filter]: pairs with a removed end are dropped, the others are
    kept *as they are*.  [num_sites] becomes the number of kept sites. *)
Definition ofilter (keep : list bool) (b : list coo) : outcome (list coo) :=
  fold_right (fun c acc =>
    obind acc (fun t =>
    obind (aget keep (fst c)) (fun k1 =>
    if negb k1 then Ok t
    else obind (aget keep (snd c)) (fun k2 => Ok (if negb k2 then t else c :: t)))))
    (Ok []) b.

Definition hb_filter (keep : list bool) (h : hblocks) : outcome hblocks :=
  omap (HB (count_true keep)) (osequence (ofilter keep) (hb_blocks h)).

(** HoppingBlocks.cpp:91-93 *)
Definition hb_add_sites (h : hblocks) (k : nat) : hblocks := HB (hb_n h + k) (hb_blocks h).

(** HoppingBlocks.cpp:95-105 [tocsr]: Eigen's [insert] requires an in-range position that is
    not stored yet; anything else is UB.  The matrix is a list of ((row, col), family). *)
Definition csr_insert (n : nat) (m : list (coo * nat)) (c : coo) (f : nat) : outcome (list (coo * nat)) :=
  if (fst c <? n) && (snd c <? n) && negb (existsb (fun e => coo_eqb (fst e) c) m)
  then Ok (m ++ [(c, f)]) else UB.

Definition hb_tocsr (h : hblocks) : outcome (list (coo * nat)) :=
  ofold (fun m bf => ofold (fun m c => csr_insert (hb_n h) m c (snd bf)) (fst bf) m)
        (combine (hb_blocks h) (seq 0 (length (hb_blocks h)))) [].

(** System.hpp boundaries: hopping blocks + shift (the shift is opaque here). *)
Record sysdata (P S : Type) := SysData {
  sd_pos : list P;
  sd_subs : rle;
  sd_hops : hblocks;
  sd_bounds : list (hblocks * S);
  sd_valid : list bool
}.
Arguments SysData {P S}.
Arguments sd_pos {P S}. Arguments sd_subs {P S}. Arguments sd_hops {P S}.
Arguments sd_bounds {P S}. Arguments sd_valid {P S}.

(** System.cpp:160-174 [remove_invalid]. [slice] reads [keep[i]] for every i < size:
    a mask of another length is UB (or writes out of range). *)
Definition remove_invalid {P S} (s : sysdata P S) : outcome (sysdata P S) :=
  match sd_valid s with
  | [] => Ok s
  | keep =>
    if negb (length keep =? length (sd_pos s)) then UB else
    obind (rle_filter keep (sd_subs s)) (fun subs =>
    obind (hb_filter keep (sd_hops s)) (fun hops =>
    obind (osequence (fun b => omap (fun h => (h, snd b)) (hb_filter keep (fst b))) (sd_bounds s)) (fun bs =>
    Ok (SysData (mask keep (sd_pos s)) subs hops bs []))))
  end.
