(* Property theorems C05, C06, C07, C08: from unit cell to finite system.
   Model: Foundation.v; specifications: FoundationSpec.v; proofs: IndexProofs.v, PositionProofs.v,
   DanglingGraph.v, DanglingProofs.v, FinalProofs.v, FoundationFacts.v, PopulateFacts.v. *)
From Verif Require Import Base Rle RleProofs Blocks Foundation Scalar Lattice LatticeSpec PropsLattice FoundationSpec FoundationFacts PopulateFacts.
From Coq Require Import Permutation.

(** Unit cell of the example lattice of PropsLattice.v (graphene with an aliased third site). *)
Definition ex_cell : list (usite nat) :=
  match unit_cell (l_subs ex_lattice) (l_fams ex_lattice) with Ok uc => uc | _ => [] end.
Example ex_cell_ok : unit_cell (l_subs ex_lattice) (l_fams ex_lattice) = Ok ex_cell.
Proof. reflexivity. Qed.

(* ------------------------------------------------------------------ C05 *)
(** (cell, sublattice number) and array index correspond one to one. *)
Theorem C05_one_to_one :
  forall size nsub, positive_block size ->
  (forall i a, cell_of size i -> a < nsub -> place size i a < num_block_sites size nsub) /\
  (forall i a j b, cell_of size i -> cell_of size j -> place size i a = place size j b -> i = j /\ a = b) /\
  (forall k, k < num_block_sites size nsub -> exists i a, cell_of size i /\ a < nsub /\ place size i a = k).
Proof. exact place_bij. Qed.
Print Assumptions C05_one_to_one.

(** Iterating over the foundation visits array index 0, 1, 2, ... with the matching cell and sublattice. *)
Theorem C05_all_sites :
  forall size nsub, positive_block size ->
  length (all_sites size nsub) = num_block_sites size nsub /\
  (forall k s, nth_error (all_sites size nsub) k = Some s ->
     s_flat s = Z.of_nat k /\ cell_of size (s_idx s) /\
     exists a, a < nsub /\ s_sub s = Z.of_nat a /\ place size (s_idx s) a = k).
Proof. exact all_sites_nth. Qed.
Print Assumptions C05_all_sites.

(** A spatial slice inside the block visits exactly the selected sites, in increasing array order. *)
Theorem C05_slices :
  forall size nsub r, positive_block size -> slice_inside size r ->
  (forall s, In s (slice_sites size nsub r) <->
     selected size r (s_idx s) /\ exists a, a < nsub /\ s_sub s = Z.of_nat a /\ s_flat s = Z.of_nat (place size (s_idx s) a)) /\
  strictly_increasing (map s_flat (slice_sites size nsub r)).
Proof. exact slice_facts. Qed.
Print Assumptions C05_slices.

(** Full claim for the slice of one sublattice. *)
Definition C05_sublattice_claim : Prop :=
  forall size k n s, positive_block size -> nth_error (sub_slice_sites size k) n = Some s ->
  s_flat s = Z.of_nat (k * num_block_sites size 1 + n) /\ cell_of size (s_idx s) /\
  Z.of_nat (place size (s_idx s) k) = s_flat s /\ s_sub s = Z.of_nat k.

(** False: the iterator of a sublattice slice reports sublattice 0. *)
Theorem C05_sublattice_slice_refuted : ~ C05_sublattice_claim.
Proof.
  intros H. destruct (H (I3 2 1 1) 1 0 (Site zero3 0 2)) as (_ & _ & _ & E).
  - repeat split; reflexivity.
  - reflexivity.
  - discriminate E.
Qed.
Print Assumptions C05_sublattice_slice_refuted.

(** What holds: right array indices and cells, all of them, in order. *)
Theorem C05_sublattice_slice_partial :
  forall size k, positive_block size ->
  length (sub_slice_sites size k) = num_block_sites size 1 /\
  (forall n s, nth_error (sub_slice_sites size k) n = Some s ->
     s_flat s = Z.of_nat (k * num_block_sites size 1 + n) /\ cell_of size (s_idx s) /\
     Z.of_nat (place size (s_idx s) k) = s_flat s /\ s_sub s = 0%Z).
Proof. exact sub_slice_facts. Qed.
Print Assumptions C05_sublattice_slice_partial.

(** Every entry of the position array is the geometric position of its site; positions live in
    any type with addition and integer scaling. *)
Theorem C05_positions :
  forall P (padd : P -> P -> P) (pscale : Z -> P -> P),
  (forall p v, padd p (pscale 0%Z v) = p) ->
  forall origin size vecs (uc : list (usite P)), positive_block size ->
  0 < length vecs -> (length vecs < 2 -> iy size = 1%Z) -> (length vecs < 3 -> iz size = 1%Z) ->
  exists pos, generate_positions P padd pscale origin size vecs uc = Ok pos /\
    length pos = num_block_sites size (length uc) /\
    forall i a u, cell_of size i -> nth_error uc a = Some u ->
      nth_error pos (place size i a) =
      Some (let along d n p := match nth_error vecs d with Some v => padd p (pscale n v) | None => p end in
            along 0 (ix i) (along 1 (iy i) (along 2 (iz i) (padd origin (u_pos u))))).
Proof. exact positions_facts. Qed.
Print Assumptions C05_positions.

Example C05_example_slice :
  map s_flat (slice_sites (I3 3 2 1) 2 (Sl3 (Sl 1 (-1)) (Sl 0 1) slice_all)) = [1; 2; 7; 8]%Z /\
  map s_flat (sub_slice_sites (I3 3 2 1) 1) = [6; 7; 8; 9; 10; 11]%Z.
Proof. split; reflexivity. Qed.
Example C05_example_positions :
  generate_positions Z Z.add Z.mul 1000%Z (I3 3 2 1) [10; 100]%Z [USite 1%Z 1 0 0 []; USite 2%Z 1 1 1 []]
  = Ok [1001; 1011; 1021; 1101; 1111; 1121; 1002; 1012; 1022; 1102; 1112; 1122]%Z.
Proof. reflexivity. Qed.

(* ------------------------------------------------------------------ C06 *)
(** Full claim: the surviving sites are the largest subset of the valid sites in which every
    site keeps [m] neighbours. *)
Definition C06_claim : Prop :=
  forall (R : scalar) (P : Type) offset_ok order (cs : list (lcall R P)) subs fams uc size m valid,
  Permutation subs (l_subs (calls offset_ok order cs)) -> Permutation fams (l_fams (calls offset_ok order cs)) ->
  unit_cell subs fams = Ok uc -> positive_block size -> length valid = num_block_sites size (length uc) ->
  exists valid', remove_dangling size uc m valid = Ok valid' /\
    is_core size uc m (flagged size valid) (flagged size valid').

(** False: a site that had too few neighbours from the start is never looked at. *)
Theorem C06_core_refuted : ~ C06_claim.
Proof.
  intros H. set (c := [AddSublattice (Nm 1) 0 (energy1 (0, 0)%Z)] : list (lcall GI nat)).
  assert (Hp : positive_block (I3 1 1 1)) by (repeat split; reflexivity).
  destruct (H GI nat (fun _ => true) (fun x => x) c (l_subs (calls (fun _ => true) (fun x => x) c)) (l_fams (calls (fun _ => true) (fun x => x) c))
    [USite 0 1 0 0 []] (I3 1 1 1) 1%Z [true] (Permutation_refl _) (Permutation_refl _) eq_refl Hp eq_refl) as (v & E & _ & K & _).
  vm_compute in E. injection E as <-.
  assert (B : bsite_in (I3 1 1 1) [USite 0 1 0 0 []] (zero3, 0)) by (repeat split; cbn; lia).
  specialize (K (zero3, 0) B eq_refl). vm_compute in K. apply K. reflexivity.
Qed.
Print Assumptions C06_core_refuted.

(** What the code computes for every lattice, block, mask and visiting order: the largest subset
    in which every site keeps [m] neighbours or has lost none.  Always terminates. *)
Theorem C06_greatest_partial :
  forall (R : scalar) (P : Type) offset_ok order (cs : list (lcall R P)) subs fams uc size m valid,
  Permutation subs (l_subs (calls offset_ok order cs)) -> Permutation fams (l_fams (calls offset_ok order cs)) ->
  unit_cell subs fams = Ok uc -> positive_block size -> length valid = num_block_sites size (length uc) ->
  exists valid', remove_dangling size uc m valid = Ok valid' /\ length valid' = num_block_sites size (length uc) /\
    subset_of size uc (flagged size valid') (flagged size valid) /\
    keep_or_untouched size uc m (flagged size valid') /\
    (forall T, subset_of size uc T (flagged size valid) -> keep_or_untouched size uc m T ->
       subset_of size uc T (flagged size valid')).
Proof.
  intros R P oo o cs subs fams uc size m valid Hs Hf Hu Hp Hv. rewrite remove_dangling_all.
  exact (trim_sites size uc Hp (api_ok R P oo o cs subs fams Hs Hf uc Hu) _ m valid (Permutation_refl _) Hv).
Qed.
Print Assumptions C06_greatest_partial.

(** The full claim when every valid site has at least [m] neighbours in the block. *)
Theorem C06_core_partial :
  forall (R : scalar) (P : Type) offset_ok order (cs : list (lcall R P)) subs fams uc size m valid valid',
  Permutation subs (l_subs (calls offset_ok order cs)) -> Permutation fams (l_fams (calls offset_ok order cs)) ->
  unit_cell subs fams = Ok uc -> positive_block size -> length valid = num_block_sites size (length uc) ->
  (forall s, bsite_in size uc s -> flagged size valid s = true -> (m <= Z.of_nat (length (block_neighbours size uc s)))%Z) ->
  remove_dangling size uc m valid = Ok valid' ->
  is_core size uc m (flagged size valid) (flagged size valid').
Proof.
  intros R P oo o cs subs fams uc size m valid valid' Hs Hf Hu Hp Hv D E. rewrite remove_dangling_all in E.
  exact (trim_core size uc Hp (api_ok R P oo o cs subs fams Hs Hf uc Hu) _ m valid valid' (Permutation_refl _) Hv D E).
Qed.
Print Assumptions C06_core_partial.

(** Neither the order in which invalid sites are visited nor the hash-map iteration order behind
    the neighbour lists matters. *)
Theorem C06_order_independent :
  forall (R : scalar) (P : Type) offset_ok order (cs : list (lcall R P)) subs1 fams1 subs2 fams2 uc1 uc2 size m valid sites,
  Permutation subs1 (l_subs (calls offset_ok order cs)) -> Permutation fams1 (l_fams (calls offset_ok order cs)) ->
  Permutation subs2 (l_subs (calls offset_ok order cs)) -> Permutation fams2 (l_fams (calls offset_ok order cs)) ->
  unit_cell subs1 fams1 = Ok uc1 -> unit_cell subs2 fams2 = Ok uc2 ->
  positive_block size -> length valid = num_block_sites size (length uc1) ->
  Permutation sites (all_sites size (length uc1)) ->
  remove_dangling_from sites size uc1 m valid = remove_dangling size uc2 m valid.
Proof.
  intros R P oo o cs subs1 fams1 subs2 fams2 uc1 uc2 size m valid sites S1 F1 S2 F2 U1 U2 Hp Hv HO. rewrite remove_dangling_all.
  destruct (api_neighbours_perm R P oo o cs subs1 fams1 subs2 fams2 uc1 uc2 size S1 F1 S2 F2 U1 U2) as [L B].
  exact (trim_unique P size uc1 uc2 m valid _ _ Hp (api_ok R P oo o cs _ _ S1 F1 _ U1) (api_ok R P oo o cs _ _ S2 F2 _ U2) L B HO
    (Permutation_refl _) Hv).
Qed.
Print Assumptions C06_order_independent.

(** A removal that cascades: chain of cells, one site missing, two neighbours required. *)
Definition chain_lattice := calls (fun _ : nat => true) (fun x => x)
  [AddSublattice (Nm 1) 0 (energy1 (0, 0)%Z); AddHoppingEnergy (I3 1 0 0) (Nm 1) (Nm 1) (energy1 (1, 0)%Z);
   AddHoppingEnergy (I3 0 1 0) (Nm 1) (Nm 1) (energy1 (1, 0)%Z)].
Definition chain_cell := match unit_cell (l_subs chain_lattice) (l_fams chain_lattice) with Ok uc => uc | _ => [] end.
Example C06_example :
  remove_dangling (I3 4 3 1) chain_cell 2 [true; true; true; true;  false; true; false; false;  true; true; true; true]
  = Ok (repeat false 12) /\
  remove_dangling (I3 4 3 1) chain_cell 2 [true; true; true; false;  true; false; true; true;  true; true; true; true]
  = Ok [true; true; true; false;  true; false; true; true;  true; true; true; true].
Proof. split; vm_compute; reflexivity. Qed.

(* ------------------------------------------------------------------ C07 *)
(** Building never fails, for every lattice, block, mask and position array. *)
Theorem C07_populate_succeeds :
  forall (R : scalar) (P : Type) offset_ok order (cs : list (lcall R P)) subs fams uc size valid fpos dflt,
  Permutation subs (l_subs (calls offset_ok order cs)) -> Permutation fams (l_fams (calls offset_ok order cs)) ->
  unit_cell subs fams = Ok uc -> positive_block size ->
  length valid = num_block_sites size (length uc) -> length fpos = num_block_sites size (length uc) ->
  exists sys, populate_system dflt size uc (length (l_fams (calls offset_ok order cs))) fpos valid = Ok sys.
Proof.
  intros R P oo o cs subs fams uc size valid fpos dflt Hs Hf Hu Hp Hv Hpos.
  destruct (api_populate R P oo o cs subs fams Hs Hf uc Hu size Hp valid Hv fpos dflt Hpos) as (d & hb & E & _). eauto.
Qed.
Print Assumptions C07_populate_succeeds.

(** The system numbers the valid sites 0..n-1 in block order; position and sublattice label of
    each number are those of its site; labels are sorted by orbital count. *)
Theorem C07_numbering :
  forall (R : scalar) (P : Type) offset_ok order (cs : list (lcall R P)) subs fams
    (Hs : Permutation subs (l_subs (calls offset_ok order cs))) (Hf : Permutation fams (l_fams (calls offset_ok order cs)))
    uc (Hu : unit_cell subs fams = Ok uc) size (Hp : positive_block size)
    valid (Hv : length valid = num_block_sites size (length uc)) fpos dflt
    (Hl : length fpos = num_block_sites size (length uc)) pos d hb,
  populate_system dflt size uc (length (l_fams (calls offset_ok order cs))) fpos valid = Ok (pos, d, hb) ->
  let n := number valid (num_block_sites size (length uc)) in
  length pos = n /\ length (labels d) = n /\ hb_n hb = n /\
  (forall i a u, cell_of size i -> nth_error uc a = Some u -> flagged size valid (i, a) = true ->
     nth_error pos (number valid (place size i a)) = nth_error fpos (place size i a) /\
     nth_error (labels d) (number valid (place size i a)) = Some (u_alias u, u_norb u)) /\
  (forall k, k < n -> exists i a, cell_of size i /\ a < length uc /\ flagged size valid (i, a) = true /\
     number valid (place size i a) = k) /\
  (forall j k x y, j <= k -> nth_error (labels d) j = Some x -> nth_error (labels d) k = Some y -> snd x <= snd y).
Proof. exact api_numbering. Qed.
Print Assumptions C07_numbering.

(* ------------------------------------------------------------------ C08 *)
(** Family [f] holds exactly the hoppings its terms make between valid sites; over all families
    no hopping is stored twice, in either direction. *)
Theorem C08_bonds :
  forall (R : scalar) (P : Type) offset_ok order (cs : list (lcall R P)) subs fams
    (Hs : Permutation subs (l_subs (calls offset_ok order cs))) (Hf : Permutation fams (l_fams (calls offset_ok order cs)))
    uc (Hu : unit_cell subs fams = Ok uc) size (Hp : positive_block size)
    valid (Hv : length valid = num_block_sites size (length uc)) fpos dflt
    (Hl : length fpos = num_block_sites size (length uc)) pos d hb,
  populate_system dflt size uc (length (l_fams (calls offset_ok order cs))) fpos valid = Ok (pos, d, hb) ->
  length (hb_blocks hb) = length (l_fams (calls offset_ok order cs)) /\
  (forall f pq, In pq (nth f (hb_blocks hb) []) <->
     exists fam t, In fam (l_fams (calls offset_ok order cs)) /\ fm_id fam = f /\ In t (fm_terms fam) /\
       bond_of size uc valid t pq) /\
  NoDup (concat (hb_blocks hb)) /\
  (forall p q, In (p, q) (concat (hb_blocks hb)) -> ~ In (q, p) (concat (hb_blocks hb))).
Proof. exact api_bonds. Qed.
Print Assumptions C08_bonds.

(** 2 x 2 cells, three sublattices, two sites removed. *)
Definition ex_valid : list bool := [true; true; false; true;  true; true; true; true;  true; false; true; true].
Example C07_C08_example :
  populate_system 0 (I3 2 2 1) ex_cell (length (l_fams ex_lattice)) (seq 100 12) ex_valid
  = Ok ([100; 101; 103; 104; 105; 106; 107; 108; 110; 111],
        [Elem 0 7 1; Elem 1 3 1],
        HB 10 [ [(0, 7); (2, 9); (7, 5)]; [(3, 4); (5, 6)] ]).
Proof. vm_compute. reflexivity. Qed.
