(* Property theorems C09 and C10: translational symmetry.
   Model: Symmetry.v; specification: SymmetrySpec.v; proofs: SymmetryProofs.v, BoundaryProofs.v. *)
From Verif Require Import Base Rle RleProofs Blocks Foundation Scalar Lattice LatticeSpec PropsLattice FoundationSpec FoundationFacts PopulateFacts PropsFoundation Symmetry SymmetrySpec SymmetryProofs BoundaryProofs.
From Coq Require Import Permutation.

(* ------------------------------------------------------------------ C09 *)
(** Full claim: the boundaries hold exactly the hoppings to periodic images, each in exactly one
    place.  Only cells of one period are valid, as arranged by [sym_apply]. *)
Definition C09_claim : Prop :=
  forall (R : scalar) (P : Type) offset_ok order (cs : list (lcall R P)) subs fams uc size s valid bs,
  Permutation subs (l_subs (calls offset_ok order cs)) -> Permutation fams (l_fams (calls offset_ok order cs)) ->
  unit_cell subs fams = Ok uc -> positive_block size -> block_holds_period size s ->
  length valid = num_block_sites size (length uc) ->
  (forall i a, cell_of size i -> a < length uc -> flagged size valid (i, a) = true -> in_period size s i) ->
  boundaries_of size uc (length (l_fams (calls offset_ok order cs))) s valid = Ok bs ->
  forall fam t T pq, In fam (l_fams (calls offset_ok order cs)) -> In t (fm_terms fam) -> whole_periods s T ->
    image_bond size uc valid T t pq ->
    exists b, In b bs /\ b_shift b = T /\ In pq (nth (fm_id fam) (hb_blocks (b_hops b)) []).

(** A chain whose only bond skips one cell, with a period of two cells: no boundary at all. *)
Definition skip_lattice := calls (fun _ : nat => true) (fun x => x)
  [AddSublattice (Nm 1) 0 (energy1 (0, 0)%Z); AddHoppingEnergy (I3 2 0 0) (Nm 1) (Nm 1) (energy1 (1, 0)%Z)].
Definition skip_cell := match unit_cell (l_subs skip_lattice) (l_fams skip_lattice) with Ok uc => uc | _ => [] end.

Example C09_skip_example :
  boundaries_of (I3 4 1 1) skip_cell 1 (Sym (Some 2%Z) None None) [false; true; true; false] = Ok [].
Proof. vm_compute. reflexivity. Qed.

(** False: bonds longer than one cell are lost. *)
Theorem C09_long_bonds_refuted : ~ C09_claim.
Proof.
  intros H.
  assert (HP : positive_block (I3 4 1 1)) by (repeat split; reflexivity).
  assert (HB : block_holds_period (I3 4 1 1) (Sym (Some 2%Z) None None)) by (repeat split; cbn; lia).
  assert (HV : forall i a, cell_of (I3 4 1 1) i -> a < length skip_cell ->
     flagged (I3 4 1 1) [false; true; true; false] (i, a) = true -> in_period (I3 4 1 1) (Sym (Some 2%Z) None None) i).
  { intros [x y z] a (X1 & X2 & X3) Ha F. cbn in X1, X2, X3, Ha.
    assert (y = 0 /\ z = 0)%Z as [-> ->] by lia. assert (a = 0) by lia. subst a.
    unfold in_period, in_period1. cbn. repeat split; try lia.
    - assert (x = 0 \/ x = 1 \/ x = 2 \/ x = 3)%Z as [-> | [-> | [-> | ->]]] by lia; cbn in F; try discriminate; cbn; lia.
    - assert (x = 0 \/ x = 1 \/ x = 2 \/ x = 3)%Z as [-> | [-> | [-> | ->]]] by lia; cbn in F; try discriminate; cbn; lia. }
  set (t := Term (I3 2 0 0) 0 0).
  destruct (H GI nat (fun _ => true) (fun x => x) _ (l_subs skip_lattice) (l_fams skip_lattice) skip_cell (I3 4 1 1) (Sym (Some 2%Z) None None)
    [false; true; true; false] [] (Permutation_refl _) (Permutation_refl _) eq_refl HP HB eq_refl HV C09_skip_example
    (nth 0 (l_fams skip_lattice) (Fam (Nm 1) (energy1 (0, 0)%Z) 0 [])) t (I3 (-2) 0 0) (0, 0)) as (b & [] & _).
  - left. reflexivity.
  - left. reflexivity.
  - split; [discriminate|]. exists (-1)%Z, 0%Z, 0%Z. reflexivity.
  - exists (I3 1 0 0), 0, 0, (nth 0 skip_cell (USite 0 0 0 0 [])), (nth 0 skip_cell (USite 0 0 0 0 [])).
    repeat split; vm_compute; try reflexivity; intros; discriminate.
Qed.
Print Assumptions C09_long_bonds_refuted.

(** What holds: every stored hopping is a bond to a periodic image (for bonds of any length), no
    hopping is stored twice in either direction, and the boundaries are complete for all bonds
    that, in each periodic direction, reach at most one cell or have a period of one cell. *)
Theorem C09_boundaries_partial :
  forall (R : scalar) (P : Type) offset_ok order (cs : list (lcall R P)) subs fams
    (Hs : Permutation subs (l_subs (calls offset_ok order cs))) (Hf : Permutation fams (l_fams (calls offset_ok order cs)))
    uc (Hu : unit_cell subs fams = Ok uc) size (Hp : positive_block size) s (Hb : block_holds_period size s)
    valid (Hv : length valid = num_block_sites size (length uc)),
  (forall i a, cell_of size i -> a < length uc -> flagged size valid (i, a) = true -> in_period size s i) ->
  exists bs, boundaries_of size uc (length (l_fams (calls offset_ok order cs))) s valid = Ok bs /\
  NoDup (map b_shift bs) /\
  (forall b, In b bs -> whole_periods s (b_shift b) /\
     hb_n (b_hops b) = number valid (num_block_sites size (length uc)) /\
     length (hb_blocks (b_hops b)) = length (l_fams (calls offset_ok order cs)) /\
     NoDup (concat (hb_blocks (b_hops b))) /\
     forall f pq, In pq (nth f (hb_blocks (b_hops b)) []) ->
       exists fam t, In fam (l_fams (calls offset_ok order cs)) /\ fm_id fam = f /\ In t (fm_terms fam) /\
         image_bond size uc valid (b_shift b) t pq) /\
  (forall b b' p q, In b bs -> In b' bs -> b_shift b' = opposite (b_shift b) ->
     In (p, q) (concat (hb_blocks (b_hops b))) -> ~ In (q, p) (concat (hb_blocks (b_hops b')))) /\
  (forall fam t T pq, In fam (l_fams (calls offset_ok order cs)) -> In t (fm_terms fam) -> short_range s (t_rel t) ->
     whole_periods s T -> image_bond size uc valid T t pq ->
     exists b, In b bs /\ b_shift b = T /\ In pq (nth (fm_id fam) (hb_blocks (b_hops b)) [])).
Proof. exact api_boundaries. Qed.
Print Assumptions C09_boundaries_partial.

(** Square lattice, 3 x 2 cells valid out of 5 x 4, periodic in both directions: two boundaries. *)
Example C09_example :
  boundaries_of (I3 5 4 1) chain_cell (length (l_fams chain_lattice)) (Sym (Some 3%Z) (Some 2%Z) None)
    [false; false; false; false; false;  false; true; true; true; false;  false; true; true; true; false;  false; false; false; false; false]
  = Ok [Bnd (I3 (-3) 0 0) (HB 6 [ [(2, 0); (5, 3)] ]); Bnd (I3 0 (-2) 0) (HB 6 [ [(3, 0); (4, 1); (5, 2)] ])].
Proof. vm_compute. reflexivity. Qed.

(* ------------------------------------------------------------------ C10 *)
(** Full claim: no access outside the block for any period. *)
Definition C10_claim : Prop :=
  forall (R : scalar) (P : Type) offset_ok order (cs : list (lcall R P)) subs fams uc size s valid,
  Permutation subs (l_subs (calls offset_ok order cs)) -> Permutation fams (l_fams (calls offset_ok order cs)) ->
  unit_cell subs fams = Ok uc -> positive_block size -> length valid = num_block_sites size (length uc) ->
  exists valid' bs, sym_apply size (length uc) s valid = Ok valid' /\
    boundaries_of size uc (length (l_fams (calls offset_ok order cs))) s valid' = Ok bs.

(** False: with a period of three cells and a block of one cell, cell number -1 is read. *)
Theorem C10_long_period_refuted : ~ C10_claim.
Proof.
  intros H. assert (HP : positive_block (I3 1 1 1)) by (repeat split; reflexivity).
  destruct (H GI nat (fun _ => true) (fun x => x) _ (l_subs chain_lattice) (l_fams chain_lattice) chain_cell (I3 1 1 1) (Sym (Some 3%Z) None None)
    [true] (Permutation_refl _) (Permutation_refl _) eq_refl HP eq_refl) as (v & bs & E1 & E2).
  vm_compute in E1. injection E1 as <-. vm_compute in E2. discriminate.
Qed.
Print Assumptions C10_long_period_refuted.

(** What holds: no access outside the block whenever one period fits into it; afterwards exactly
    the valid sites of the central period are valid. *)
Theorem C10_inside_partial :
  forall (R : scalar) (P : Type) offset_ok order (cs : list (lcall R P)) subs fams uc size s valid,
  Permutation subs (l_subs (calls offset_ok order cs)) -> Permutation fams (l_fams (calls offset_ok order cs)) ->
  unit_cell subs fams = Ok uc -> positive_block size -> block_holds_period size s ->
  length valid = num_block_sites size (length uc) ->
  exists valid' bs, sym_apply size (length uc) s valid = Ok valid' /\ length valid' = length valid /\
    (forall i a, cell_of size i -> a < length uc ->
       (flagged size valid' (i, a) = true <-> flagged size valid (i, a) = true /\ in_period size s i)) /\
    boundaries_of size uc (length (l_fams (calls offset_ok order cs))) s valid' = Ok bs.
Proof.
  intros R P oo o cs subs fams uc size s valid Hs Hf Hu Hp Hb Hv.
  destruct (sym_apply_ok size (length uc) s valid Hp Hb Hv) as (v & E & L & F).
  destruct (api_boundaries_raw R P oo o cs subs fams Hs Hf uc Hu size Hp s Hb v) as (bs & EB & _); [congruence|].
  exists v, bs. auto.
Qed.
Print Assumptions C10_inside_partial.

Example C10_example :
  sym_apply (I3 5 4 1) 1 (Sym (Some 3%Z) (Some 2%Z) None) (repeat true 20) =
  Ok [false; false; false; false; false;  false; true; true; true; false;  false; true; true; true; false;  false; false; false; false; false].
Proof. vm_compute. reflexivity. Qed.
