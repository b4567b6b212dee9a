(* Model of the lattice specification and of the unit cell used by the system builder.
   cppcore/{include,src}/Lattice.{hpp,cpp}, cppcore/src/system/Registry.cpp *)
From Verif Require Import Base Rle Blocks Foundation Scalar.

(** Strings used as names, up to renaming: the empty string, "__anonymous__<n>", any other.
    Users may pass any of them. *)
Inductive name := Blank | Nm (n : nat) | Anon (n : nat).
Definition name_eqb (a b : name) : bool :=
  match a, b with
  | Blank, Blank => true
  | Nm x, Nm y => x =? y
  | Anon x, Anon y => x =? y
  | _, _ => false
  end.

(** Lattice.hpp:22-25 HoppingTerm; operator== 27-32 *)
Record term := Term { t_rel : idx3; t_from : nat; t_to : nat }.
Definition term_eqb (a b : term) : bool :=
  (eqb3 (t_rel a) (t_rel b) && (t_from a =? t_from b) && (t_to a =? t_to b))
  || (eqb3 (t_rel a) (neg3 (t_rel b)) && (t_from a =? t_to b) && (t_to a =? t_from b)).

Section Lattice.
  Variable R : scalar.
  Variable P : Type.                 (* positions *)
  Variable offset_ok : P -> bool.    (* Lattice.cpp:128: offset within 0.55 of a vector *)

  (** Lattice.hpp:15-20 Sublattice *)
  Record sublattice := Sub { sb_name : name; sb_pos : P; sb_energy : mat R; sb_uid : nat; sb_alias : nat }.
  (** Lattice.hpp:37-41 HoppingFamily *)
  Record family := Fam { fm_name : name; fm_energy : mat R; fm_id : nat; fm_terms : list term }.
  (** Lattice.hpp:145-150.  The unordered maps are lists in insertion order. *)
  Record lattice := Lat { l_subs : list sublattice; l_fams : list family; l_offset : option P; l_min : Z }.

  Definition new_lattice : lattice := Lat [] [] None 1.

  (** Iteration order of an unordered_map: an arbitrary rearrangement of its entries. *)
  Variable order : list family -> list family.

  (** Result of a call: the object afterwards, and whether it returned or threw. *)
  Definition result := (lattice * bool)%type.
  Definition ok (l : lattice) : result := (l, true).
  Definition throw (l : lattice) : result := (l, false).

  (** Lattice.cpp:135-141, 153-159 lookup by name *)
  Definition find_sub (l : lattice) (n : name) : option sublattice :=
    find (fun s => name_eqb (sb_name s) n) (l_subs l).
  Definition find_fam (l : lattice) (n : name) : option family :=
    find (fun f => name_eqb (fm_name f) n) (l_fams l).

  (** Registry.cpp:107-120 check_onsite_energy.  Simplification: Eigen's isZero and
      isUpperTriangular are exact instead of up to 1e-12. *)
  Definition diag_real (e : mat R) : bool :=
    forallb (fun i => keqb (m_at e i i) (kconj (m_at e i i))) (seq 0 (m_rows e)).
  Definition is_upper (e : mat R) : bool :=
    forallb (fun i => forallb (fun j => negb (j <? i) || keqb (m_at e i j) k0) (seq 0 (m_cols e))) (seq 0 (m_rows e)).
  Definition adjoint (e : mat R) : mat R := Mat (m_cols e) (m_rows e) (fun i j => kconj (m_at e j i)).
  Definition onsite_ok (e : mat R) : bool :=
    (m_rows e =? m_cols e) && negb (m_rows e =? 0) && diag_real e
    && (is_upper e || mat_eqb e (adjoint e)).
  (** Registry.cpp:133-137 check_hopping_energy *)
  Definition hopping_ok (e : mat R) : bool := negb ((m_rows e =? 0) || (m_cols e =? 0)).

  (** Eigen selfadjointView<Upper>, Lattice.cpp:42 *)
  Definition hermitian_view (e : mat R) : mat R :=
    Mat (m_rows e) (m_cols e) (fun i j => if i <=? j then m_at e i j else kconj (m_at e j i)).

  (** Lattice.cpp:278-286 make_unique_sublattice_id; [None] is an exception *)
  Definition make_uid (l : lattice) (n : name) : option nat :=
    if name_eqb n Blank then None
    else match find_sub l n with Some _ => None | None => Some (length (l_subs l)) end.

  (** Lattice.cpp:38-46 add_sublattice *)
  Definition add_sublattice (n : name) (p : P) (e : mat R) (l : lattice) : result :=
    if negb (onsite_ok e) then throw l else
    match make_uid l n with
    | None => throw l
    | Some uid => ok (Lat (l_subs l ++ [Sub n p (hermitian_view e) uid uid]) (l_fams l) (l_offset l) (l_min l))
    end.

  (** Lattice.cpp:48-53 add_alias *)
  Definition add_alias (n orig : name) (p : P) (l : lattice) : result :=
    match find_sub l orig with
    | None => throw l
    | Some o =>
      match make_uid l n with
      | None => throw l
      | Some uid => ok (Lat (l_subs l ++ [Sub n p (sb_energy o) uid (sb_uid o)]) (l_fams l) (l_offset l) (l_min l))
      end
    end.

  (** Lattice.cpp:59-67 register_hopping_energy *)
  Definition register_hopping_energy (n : name) (e : mat R) (l : lattice) : result :=
    if name_eqb n Blank then throw l else
    if negb (hopping_ok e) then throw l else
    match find_fam l n with
    | Some _ => throw l
    | None => ok (Lat (l_subs l) (l_fams l ++ [Fam n e (length (l_fams l)) []]) (l_offset l) (l_min l))
    end.

  Definition all_terms (l : lattice) : list term := flat_map fm_terms (l_fams l).

  Definition push_term (n : name) (t : term) (f : family) : family :=
    if name_eqb (fm_name f) n then Fam (fm_name f) (fm_energy f) (fm_id f) (fm_terms f ++ [t]) else f.

  (** Lattice.cpp:69-99 add_hopping by family name *)
  Definition add_hopping (rel : idx3) (from to : name) (fam : name) (l : lattice) : result :=
    if name_eqb from to && eqb3 rel zero3 then throw l else
    match find_sub l from, find_sub l to, find_fam l fam with
    | Some sf, Some st, Some f =>
      if negb (m_rows (sb_energy sf) =? m_rows (fm_energy f)) || negb (m_cols (sb_energy st) =? m_cols (fm_energy f))
      then throw l else
      let t := Term rel (sb_uid sf) (sb_uid st) in
      if existsb (term_eqb t) (all_terms l) then throw l else
      ok (Lat (l_subs l) (map (push_term fam t) (l_fams l)) (l_offset l) (l_min l))
    | _, _, _ => throw l
    end.

  (** Lattice.cpp:106-125 add_hopping with an energy: reuse a family with equal energy, else
      register an anonymous one *before* the hopping is validated. *)
  Definition add_hopping_energy (rel : idx3) (from to : name) (e : mat R) (l : lattice) : result :=
    match find (fun f => mat_eqb (fm_energy f) e) (order (l_fams l)) with
    | Some f => add_hopping rel from to (fm_name f) l
    | None =>
      let n := Anon (length (l_fams l)) in
      match register_hopping_energy n e l with
      | (l', true) => add_hopping rel from to n l'
      | (l', false) => throw l'
      end
    end.

  (** Lattice.cpp:127-133 set_offset; Lattice.hpp:92 set_min_neighbors *)
  Definition set_offset (p : P) (l : lattice) : result :=
    if negb (offset_ok p) then throw l else ok (Lat (l_subs l) (l_fams l) (Some p) (l_min l)).
  Definition set_min_neighbors (m : Z) (l : lattice) : result :=
    ok (Lat (l_subs l) (l_fams l) (l_offset l) m).

  Inductive lcall :=
  | AddSublattice (n : name) (p : P) (e : mat R)
  | AddAlias (n orig : name) (p : P)
  | RegisterHopping (n : name) (e : mat R)
  | AddHopping (rel : idx3) (from to fam : name)
  | AddHoppingEnergy (rel : idx3) (from to : name) (e : mat R)
  | SetOffset (p : P)
  | SetMinNeighbors (m : Z).

  Definition call (c : lcall) (l : lattice) : result :=
    match c with
    | AddSublattice n p e => add_sublattice n p e l
    | AddAlias n o p => add_alias n o p l
    | RegisterHopping n e => register_hopping_energy n e l
    | AddHopping r a b f => add_hopping r a b f l
    | AddHoppingEnergy r a b e => add_hopping_energy r a b e l
    | SetOffset p => set_offset p l
    | SetMinNeighbors m => set_min_neighbors m l
    end.

  (** A history of calls; a throwing call is caught by the user and the lattice is used on. *)
  Definition calls (cs : list lcall) : lattice := fold_left (fun l c => fst (call c l)) cs new_lattice.

  (** Lattice.cpp:247-265 site_registry: [vector::at] throws; the arrays start out with empty
      entries ([None]).  Iterated in any order [subs] of the sublattices. *)
  Definition is_alias (s : sublattice) : bool := negb (sb_alias s =? sb_uid s).
  Definition reg_set {A} (a : list (option A)) (i : nat) (x : A) : outcome (list (option A)) :=
    if i <? length a then Ok (upd a i (Some x)) else Throw.
  Definition site_registry (subs : list sublattice) : outcome (list (option (name * mat R))) :=
    let n := length (filter (fun s => negb (is_alias s)) subs) in
    ofold (fun a s => if is_alias s then Ok a else reg_set a (sb_uid s) (sb_name s, sb_energy s)) subs (repeat None n).
  (** Lattice.cpp:267-276 hopping_registry *)
  Definition hopping_registry (fams : list family) : outcome (list (option (name * mat R))) :=
    ofold (fun a f => reg_set a (fm_id f) (fm_name f, fm_energy f)) fams (repeat None (length fams)).

  (** Lattice.cpp:171-188 max_hoppings ([cols - 1] is a signed subtraction, cols >= 1) *)
  Definition max_hoppings (subs : list sublattice) (fams : list family) : nat :=
    fold_left (fun r s =>
      Nat.max r (fold_left (fun n f => fold_left (fun n t =>
           n + (if t_from t =? sb_uid s then m_cols (fm_energy f) else 0)
             + (if t_to t =? sb_uid s then m_rows (fm_energy f) else 0)) (fm_terms f) n)
        fams (m_cols (sb_energy s) - 1))) subs 0.

  (** std::stable_sort, as insertion sort (inserting behind equal keys). *)
  Fixpoint sinsert {A} (key : A -> nat) (x : A) (l : list A) : list A :=
    match l with
    | [] => [x]
    | y :: t => if key x <? key y then x :: l else y :: sinsert key x t
    end.
  Definition stable_sort {A} (key : A -> nat) (l : list A) : list A :=
    fold_left (fun acc x => sinsert key x acc) l [].

  (** Lattice.cpp:288-295: sites in ascending unique id; [sites[idx]] out of range is UB. *)
  Definition uc_place (subs : list sublattice) : outcome (list (option (usite P))) :=
    ofold (fun a s => if sb_uid s <? length a
                      then Ok (upd a (sb_uid s) (Some (USite (sb_pos s) (m_cols (sb_energy s)) (sb_uid s) (sb_alias s) [])))
                      else UB)
          subs (repeat None (length subs)).

  Fixpoint all_some {A} (l : list (option A)) : outcome (list A) :=
    match l with
    | [] => Ok []
    | Some x :: t => omap (cons x) (all_some t)
    | None :: _ => UB      (* a default-constructed entry is left over *)
    end.

  (** Lattice.cpp:310-317 find_index; not found is UB (assert) *)
  Fixpoint index_of {A} (p : A -> bool) (l : list A) : outcome nat :=
    match l with
    | [] => UB
    | x :: t => if p x then Ok 0 else omap S (index_of p t)
    end.

  Definition push_hop (sites : list (usite P)) (i : nat) (h : hop) : outcome (list (usite P)) :=
    obind (aget sites i) (fun u =>
    Ok (upd sites i (USite (u_pos u) (u_norb u) (u_uid u) (u_alias u) (u_hops u ++ [h])))).

  (** Lattice.cpp:319-328, one term *)
  Definition add_term (fid : nat) (sites : list (usite P)) (t : term) : outcome (list (usite P)) :=
    obind (index_of (fun u => u_uid u =? t_from t) sites) (fun i1 =>
    obind (index_of (fun u => u_uid u =? t_to t) sites) (fun i2 =>
    obind (push_hop sites i1 (Hop (t_rel t) i2 fid false)) (fun sites1 =>
    push_hop sites1 i2 (Hop (neg3 (t_rel t)) i1 fid true)))).

  (** Lattice.cpp:288-329 OptimizedUnitCell *)
  Definition unit_cell (subs : list sublattice) (fams : list family) : outcome (list (usite P)) :=
    obind (uc_place subs) (fun a =>
    obind (all_some a) (fun sites =>
    ofold (fun sites f => ofold (add_term (fm_id f)) (fm_terms f) sites) fams
          (stable_sort (@u_norb P) (stable_sort (@u_alias P) sites)))).
End Lattice.

Arguments Sub {R P}. Arguments sb_name {R P}. Arguments sb_pos {R P}. Arguments sb_energy {R P}.
Arguments sb_uid {R P}. Arguments sb_alias {R P}.
Arguments Fam {R}. Arguments fm_name {R}. Arguments fm_energy {R}. Arguments fm_id {R}. Arguments fm_terms {R}.
Arguments Lat {R P}. Arguments l_subs {R P}. Arguments l_fams {R P}. Arguments l_offset {R P}. Arguments l_min {R P}.
Arguments new_lattice {R P}. Arguments find_sub {R P}. Arguments find_fam {R P}.
Arguments all_terms {R P}. Arguments is_alias {R P}. Arguments site_registry {R P}. Arguments hopping_registry {R}.
Arguments max_hoppings {R P}. Arguments uc_place {R P}. Arguments unit_cell {R P}. Arguments add_term {P}. Arguments push_hop {P}.
Arguments AddSublattice {R P}. Arguments AddAlias {R P}. Arguments RegisterHopping {R P}. Arguments AddHopping {R P}.
Arguments AddHoppingEnergy {R P}. Arguments SetOffset {R P}. Arguments SetMinNeighbors {R P}.
Arguments call {R P}. Arguments calls {R P}. Arguments onsite_ok {R}. Arguments hopping_ok {R}.
Arguments hermitian_view {R}. Arguments adjoint {R}. Arguments make_uid {R P}. Arguments push_term {R}.
Arguments add_sublattice {R P}. Arguments add_alias {R P}. Arguments register_hopping_energy {R P}.
Arguments add_hopping {R P}. Arguments add_hopping_energy {R P}. Arguments set_offset {R P}. Arguments set_min_neighbors {R P}.
Arguments ok {R P}. Arguments throw {R P}. Arguments diag_real {R}. Arguments is_upper {R}.
