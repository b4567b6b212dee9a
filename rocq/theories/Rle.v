(* Model of CompressedSublattices and of the parts of System that only need it.
   cppcore/{include,src}/system/CompressedSublattices.{hpp,cpp}, cppcore/src/system/System.cpp *)
From Verif Require Import Base.

(** CompressedSublattices.hpp:17-21 [Element].  [e_id] is the site-family (alias) id. *)
Record element := Elem { e_id : nat; e_num : nat; e_norb : nat }.

Definition rle := list element.

(** CompressedSublattices.cpp:5-13, constructor from the three arrays (used by unpickling).
    Reading [site_counts] or [orbital_counts] past their end is UB. *)
Fixpoint rle_of_arrays (ids counts norbs : list nat) : outcome rle :=
  match ids, counts, norbs with
  | [], _, _ => Ok []
  | i :: ids', c :: counts', n :: norbs' =>
      omap (fun r => Elem i c n :: r) (rle_of_arrays ids' counts' norbs')
  | _, _, _ => UB
  end.

(** CompressedSublattices.cpp:84-103 *)
Definition alias_ids (d : rle) : list nat := map e_id d.
Definition site_counts (d : rle) : list nat := map e_num d.
Definition orbital_counts (d : rle) : list nat := map e_norb d.

(** CompressedSublattices.cpp:15-21 [add]: only the id of the last block is compared. *)
Fixpoint rle_add (d : rle) (id norb count : nat) : rle :=
  match d with
  | [] => [Elem id count norb]
  | [e] => if Nat.eqb (e_id e) id then [Elem (e_id e) (e_num e + count) (e_norb e)]
           else [e; Elem id count norb]
  | e :: d' => e :: rle_add d' id norb count
  end.

(** The iterator [It], CompressedSublattices.hpp:23-66: each element together with the
    running [sys_idx] and [ham_idx]. *)
Record it := It { it_e : element; it_sys : nat; it_ham : nat }.

Fixpoint iter_from (d : rle) (sys ham : nat) : list it :=
  match d with
  | [] => []
  | e :: d' => It e sys ham :: iter_from d' (sys + e_num e) (ham + e_num e * e_norb e)
  end.

Definition iter (d : rle) : list it := iter_from d 0 0.

Definition sys_end (s : it) : nat := it_sys s + e_num (it_e s).
Definition ham_size_of (s : it) : nat := e_num (it_e s) * e_norb (it_e s).
Definition ham_end (s : it) : nat := it_ham s + ham_size_of s.

(** CompressedSublattices.cpp:70-74 *)
Definition rle_size (d : rle) : nat := fold_left (fun n e => n + e_num e) d 0.

(** CompressedSublattices.cpp:23-37 [filter]: counts of kept sites per block, read from
    [keep[sys_start .. sys_end)].  A mask shorter than that is an out-of-range read. *)
Definition rle_filter (keep : list bool) (d : rle) : outcome rle :=
  if length keep <? rle_size d then UB
  else Ok (map (fun s => Elem (e_id (it_e s))
                              (count_true (firstn (e_num (it_e s)) (skipn (it_sys s) keep)))
                              (e_norb (it_e s)))
               (iter d)).

(** CompressedSublattices.cpp:76-82 [decompressed]: write a constant segment per block. *)
Fixpoint set_segment {A} (l : list A) (start len : nat) (x : A) : list A :=
  match len with
  | 0 => l
  | S k => set_segment (upd l start x) (S start) k x
  end.

Definition decompressed (d : rle) : list nat :=
  fold_left (fun arr s => set_segment arr (it_sys s) (e_num (it_e s)) (e_id (it_e s)))
            (iter d) (repeat 0 (rle_size d)).

(** std::is_sorted *)
Fixpoint is_sorted (l : list nat) : bool :=
  match l with
  | x :: ((y :: _) as t) => (x <=? y) && is_sorted t
  | _ => true
  end.

(** sort + unique leaves the number of distinct values; simplification: the sort is not
    executed, distinct values are counted directly. *)
Definition num_distinct (l : list nat) : nat := length (nodup Nat.eq_dec l).

(** CompressedSublattices.cpp:39-59 [verify]: [true] means no exception. *)
Definition rle_verify (d : rle) (num_sites : nat) : bool :=
  (rle_size d =? num_sites)
  && (num_distinct (alias_ids d) =? length d)
  && is_sorted (orbital_counts d).

(** CompressedSublattices.cpp:61-68 [start_index] *)
Definition start_index (d : rle) (norb : nat) : outcome nat :=
  match find (fun s => e_norb (it_e s) =? norb) (iter d) with
  | Some s => Ok (it_sys s)
  | None => Throw
  end.

(** System.cpp:8-14 [hamiltonian_size] *)
Definition hamiltonian_size (d : rle) : nat :=
  fold_left (fun r s => r + ham_size_of s) (iter d) 0.

(** System.cpp:33-48 [to_hamiltonian_indices] *)
Definition to_hamiltonian_indices (d : rle) (i : nat) : outcome (list nat) :=
  match find (fun s => (it_sys s <=? i) && (i <? sys_end s)) (iter d) with
  | Some s => Ok (seq (it_ham s + (i - it_sys s) * e_norb (it_e s)) (e_norb (it_e s)))
  | None => Throw
  end.

(** System.cpp:84-97 [expanded_positions]; positions are an arbitrary type. The result
    array is pre-filled with [dflt] (uninitialised memory in C++). *)
Definition expanded_positions {P} (d : rle) (pos : list P) (dflt : P) : outcome (list P) :=
  let step (acc : outcome (list P)) (s : it) :=
    obind acc (fun ep =>
      ofold (fun ep i => obind (aget pos i) (fun p =>
                Ok (set_segment ep (it_ham s + (i - it_sys s) * e_norb (it_e s))
                                (e_norb (it_e s)) p)))
            (seq (it_sys s) (e_num (it_e s))) ep)
  in fold_left step (iter d) (Ok (repeat dflt (hamiltonian_size d))).

(** HamiltonianModifiers.hpp:161-169 IndexTranslator constructor, one coordinate (row or
    column): the system and Hamiltonian start index for matrices with [n] rows (columns).
    [to_hamiltonian_indices(..)[0]] of an empty array would be UB. *)
Definition translator_start (d : rle) (n : nat) : outcome (nat * nat) :=
  obind (start_index d n) (fun s =>
  obind (to_hamiltonian_indices d s) (fun l =>
  obind (aget l 0) (fun h => Ok (s, h)))).

(** HamiltonianModifiers.hpp:175-182: Hamiltonian index of orbital [o] of site [r].
    Natural subtraction stands for signed subtraction (used only with [s <= r]); the
    signed version is [translated_index_Z]. *)
Definition translated_index_Z (sh : nat * nat) (n o r : nat) : Z :=
  (Z.of_nat (snd sh) + Z.of_nat o + (Z.of_nat r - Z.of_nat (fst sh)) * Z.of_nat n)%Z.
