(* Property theorems C01, C02, C03, C04: the lattice specification.
   Model: Lattice.v; specifications: LatticeSpec.v; proofs: LatticeProofs.v, UnitCellProofs.v, LatticeFacts.v. *)
From Verif Require Import Base Rle Blocks Foundation Scalar Lattice LatticeSpec LatticeFacts.
From Coq Require Import Permutation.

(** Concrete lattice used by the examples: graphene with an aliased third site. *)
Definition energy1 (x : GI) : mat GI := Mat 1 1 (fun _ _ => x).
Definition ex_calls : list (lcall GI nat) :=
  [ AddSublattice (Nm 1) 100 (energy1 (0, 0)%Z);
    AddSublattice (Nm 2) 200 (energy1 (3, 0)%Z);
    AddAlias (Nm 3) (Nm 1) 300;
    RegisterHopping (Nm 9) (energy1 (-3, 1)%Z);
    AddHopping zero3 (Nm 1) (Nm 2) (Nm 9);
    AddHopping (I3 1 (-1) 0) (Nm 1) (Nm 2) (Nm 9);
    AddHoppingEnergy (I3 1 0 0) (Nm 3) (Nm 3) (energy1 (5, 0)%Z);
    AddHoppingEnergy (I3 0 1 0) (Nm 2) (Nm 3) (energy1 (-3, 1)%Z) ].
Definition ex_lattice := calls (fun _ : nat => true) (fun x => x) ex_calls.
Example ex_lattice_terms : all_terms ex_lattice =
  [Term zero3 0 1; Term (I3 1 (-1) 0) 0 1; Term (I3 0 1 0) 1 2; Term (I3 1 0 0) 2 2].
Proof. vm_compute. reflexivity. Qed.

(* ------------------------------------------------------------------ C01 *)
(** No two stored terms describe the same bond and none joins a site to itself, after any
    history of calls (also failing ones, which the user may catch). *)
Theorem C01_bonds_distinct :
  forall (R : scalar) (P : Type) offset_ok order (cs : list (lcall R P)),
  pairwise (fun a b => ~ same_bond a b) (all_terms (calls offset_ok order cs)) /\
  (forall t, In t (all_terms (calls offset_ok order cs)) -> ~ (t_from t = t_to t /\ t_rel t = zero3)).
Proof. exact bonds_distinct. Qed.
Print Assumptions C01_bonds_distinct.

Theorem C01_duplicate_rejected :
  forall (R : scalar) (P : Type) offset_ok order (cs : list (lcall R P)) rel a b fam sa sb t,
  In sa (l_subs (calls offset_ok order cs)) -> In sb (l_subs (calls offset_ok order cs)) ->
  sb_name sa = a -> sb_name sb = b ->
  In t (all_terms (calls offset_ok order cs)) -> same_bond (Term rel (sb_uid sa) (sb_uid sb)) t ->
  call offset_ok order (AddHopping rel a b fam) (calls offset_ok order cs) = (calls offset_ok order cs, false).
Proof. exact duplicate_rejected. Qed.
Print Assumptions C01_duplicate_rejected.

Theorem C01_self_rejected :
  forall (R : scalar) (P : Type) offset_ok order (l : lattice R P) a fam,
  call offset_ok order (AddHopping zero3 a a fam) l = (l, false).
Proof. exact self_rejected. Qed.
Print Assumptions C01_self_rejected.

(** An accepted call stores exactly the requested bond. *)
Theorem C01_accepted_added :
  forall (R : scalar) (P : Type) offset_ok order (cs : list (lcall R P)) rel a b fam l',
  call offset_ok order (AddHopping rel a b fam) (calls offset_ok order cs) = (l', true) ->
  exists sa sb, In sa (l_subs (calls offset_ok order cs)) /\ In sb (l_subs (calls offset_ok order cs)) /\
    sb_name sa = a /\ sb_name sb = b /\
    Permutation (all_terms l') (Term rel (sb_uid sa) (sb_uid sb) :: all_terms (calls offset_ok order cs)) /\
    l_subs l' = l_subs (calls offset_ok order cs).
Proof. exact accepted_added. Qed.
Print Assumptions C01_accepted_added.

(** The reverse of an existing bond, in another family, is rejected. *)
Example C01_example :
  call (fun _ => true) (fun x => x) (AddHopping (I3 (-1) 1 0) (Nm 2) (Nm 1) (Anon 1)) ex_lattice = (ex_lattice, false).
Proof. vm_compute. reflexivity. Qed.

(* ------------------------------------------------------------------ C02 *)
Theorem C02_ids_dense :
  forall (R : scalar) (P : Type) offset_ok order (cs : list (lcall R P)),
  let l := calls offset_ok order cs in
  map sb_uid (l_subs l) = seq 0 (length (l_subs l)) /\
  map fm_id (l_fams l) = seq 0 (length (l_fams l)) /\
  NoDup (map sb_name (l_subs l)) /\ NoDup (map fm_name (l_fams l)).
Proof. exact ids_dense. Qed.
Print Assumptions C02_ids_dense.

(** The hopping registry always exists and lists every family at its id, whatever the
    iteration order [fams] of the unordered map. *)
Theorem C02_hopping_registry :
  forall (R : scalar) (P : Type) offset_ok order (cs : list (lcall R P)) fams,
  Permutation fams (l_fams (calls offset_ok order cs)) ->
  hopping_registry fams = Ok (map (fun f => Some (fm_name f, fm_energy f)) (l_fams (calls offset_ok order cs))).
Proof. exact hopping_registry_ok. Qed.
Print Assumptions C02_hopping_registry.

(** Full claim for sites: the registry always exists. *)
Definition C02_claim : Prop :=
  forall (R : scalar) (P : Type) offset_ok order (cs : list (lcall R P)) subs,
  Permutation subs (l_subs (calls offset_ok order cs)) -> exists reg, site_registry subs = Ok reg.

(** False: a sublattice defined after an alias makes the model constructor throw. *)
Definition C02_witness : list (lcall GI nat) :=
  [ AddSublattice (Nm 1) 0 (energy1 (0, 0)%Z); AddAlias (Nm 2) (Nm 1) 1; AddSublattice (Nm 3) 2 (energy1 (0, 0)%Z) ].
Theorem C02_site_registry_refuted : ~ C02_claim.
Proof.
  intros H. destruct (H GI nat (fun _ => true) (fun x => x) C02_witness _ (Permutation_refl _)) as (reg & E).
  vm_compute in E. discriminate.
Qed.
Print Assumptions C02_site_registry_refuted.

(** Exactly when it exists: every non-alias sublattice has an id below their number, i.e. no
    non-alias sublattice was defined after an alias. *)
Theorem C02_site_registry_iff_partial :
  forall (R : scalar) (P : Type) offset_ok order (cs : list (lcall R P)) subs,
  Permutation subs (l_subs (calls offset_ok order cs)) ->
  (exists reg, site_registry subs = Ok reg) <->
  (forall s, In s (l_subs (calls offset_ok order cs)) -> primary s ->
     sb_uid s < length (filter (fun s => negb (is_alias s)) (l_subs (calls offset_ok order cs)))).
Proof. exact site_registry_iff. Qed.
Print Assumptions C02_site_registry_iff_partial.

(** When it exists it is exact. *)
Theorem C02_site_registry_content :
  forall (R : scalar) (P : Type) offset_ok order (cs : list (lcall R P)) subs reg,
  Permutation subs (l_subs (calls offset_ok order cs)) -> site_registry subs = Ok reg ->
  length reg = length (filter (fun s => negb (is_alias s)) (l_subs (calls offset_ok order cs))) /\
  (forall s, In s (l_subs (calls offset_ok order cs)) -> primary s ->
     nth_error reg (sb_uid s) = Some (Some (sb_name s, sb_energy s))) /\
  (forall i, i < length reg -> exists s, In s (l_subs (calls offset_ok order cs)) /\ primary s /\ sb_uid s = i).
Proof. exact site_registry_content. Qed.
Print Assumptions C02_site_registry_content.

(** Sites of an alias of a non-alias sublattice find their own energy under the alias id. *)
Theorem C02_alias_energy :
  forall (R : scalar) (P : Type) offset_ok order (cs : list (lcall R P)) subs reg s o,
  Permutation subs (l_subs (calls offset_ok order cs)) -> site_registry subs = Ok reg ->
  In s (l_subs (calls offset_ok order cs)) -> In o (l_subs (calls offset_ok order cs)) ->
  sb_uid o = sb_alias s -> primary o ->
  nth_error reg (sb_alias s) = Some (Some (sb_name o, sb_energy s)).
Proof. exact site_registry_alias. Qed.
Print Assumptions C02_alias_energy.

(** An alias of an alias has no registry entry: its sites cannot be resolved. *)
Definition C02_alias_claim : Prop :=
  forall (R : scalar) (P : Type) offset_ok order (cs : list (lcall R P)) subs reg s,
  Permutation subs (l_subs (calls offset_ok order cs)) -> site_registry subs = Ok reg ->
  In s (l_subs (calls offset_ok order cs)) -> sb_alias s < length reg.
Definition C02_alias_witness : list (lcall GI nat) :=
  [ AddSublattice (Nm 1) 0 (energy1 (0, 0)%Z); AddAlias (Nm 2) (Nm 1) 1; AddAlias (Nm 3) (Nm 2) 2 ].
Theorem C02_alias_of_alias_refuted : ~ C02_alias_claim.
Proof.
  intros H. pose (l := calls (fun _ : nat => true) (fun x => x) C02_alias_witness).
  assert (E : exists s, In s (l_subs l) /\ sb_alias s = 1).
  { eexists. split; [right; right; left; reflexivity|reflexivity]. }
  destruct E as (s & Hs & Es).
  pose proof (H GI nat (fun _ => true) (fun x => x) C02_alias_witness _ _ s (Permutation_refl _) eq_refl Hs) as X.
  rewrite Es in X. vm_compute in X. lia.
Qed.
Print Assumptions C02_alias_of_alias_refuted.

Example C02_example : exists reg, site_registry (rev (l_subs ex_lattice)) = Ok reg /\
  map (option_map fst) reg = [Some (Nm 1); Some (Nm 2)].
Proof. eexists. split; [vm_compute; reflexivity|reflexivity]. Qed.

(* ------------------------------------------------------------------ C03 *)
Definition C03_claim : Prop :=
  forall (R : scalar) (P : Type) offset_ok order (cs : list (lcall R P)) c,
  snd (call offset_ok order c (calls offset_ok order cs)) = false ->
  fst (call offset_ok order c (calls offset_ok order cs)) = calls offset_ok order cs.

(** False: a hopping given by energy registers its anonymous family before the sublattice
    names are checked. *)
Theorem C03_rejected_call_refuted : ~ C03_claim.
Proof.
  intros H. specialize (H GI nat (fun _ => true) (fun x => x) [] (AddHoppingEnergy zero3 (Nm 1) (Nm 2) (energy1 (1, 0)%Z)) eq_refl).
  apply (f_equal (fun l => length (l_fams l))) in H. vm_compute in H. discriminate.
Qed.
Print Assumptions C03_rejected_call_refuted.

(** Every other call is atomic. *)
Theorem C03_rejected_call_partial :
  forall (R : scalar) (P : Type) offset_ok order (c : lcall R P) l,
  match c with AddHoppingEnergy _ _ _ _ => false | _ => true end = true ->
  snd (call offset_ok order c l) = false -> fst (call offset_ok order c l) = l.
Proof. intros R P oo o c l H. apply rejected_unchanged. destruct c; auto. Qed.
Print Assumptions C03_rejected_call_partial.

(** The offending call leaves at most one unused family behind, and none if a family with that
    energy is already known. *)
Theorem C03_by_energy_partial :
  forall (R : scalar) (P : Type) offset_ok order rel a b e (l : lattice R P),
  snd (call offset_ok order (AddHoppingEnergy rel a b e) l) = false ->
  fst (call offset_ok order (AddHoppingEnergy rel a b e) l) = l \/
  (fst (call offset_ok order (AddHoppingEnergy rel a b e) l) =
     Lat (l_subs l) (l_fams l ++ [Fam (Anon (length (l_fams l))) e (length (l_fams l)) []]) (l_offset l) (l_min l) /\
   find (fun f => mat_eqb (fm_energy f) e) (order (l_fams l)) = None).
Proof. exact rejected_by_energy. Qed.
Print Assumptions C03_by_energy_partial.

Example C03_example :
  call (fun _ => true) (fun x => x) (AddSublattice (Nm 2) 7 (energy1 (0, 1)%Z)) ex_lattice = (ex_lattice, false) /\
  call (fun _ => true) (fun x => x) (AddHopping (I3 3 3 3) (Nm 1) (Nm 77) (Nm 9)) ex_lattice = (ex_lattice, false).
Proof. split; vm_compute; reflexivity. Qed.

(* ------------------------------------------------------------------ C04 *)
(** The unit cell used by the builder: every sublattice once, ordered by orbital count, alias
    group and definition; each term once forward on its source and once reversed on its
    destination, in iteration order; neighbour counts symmetric. *)
Theorem C04_unit_cell :
  forall (R : scalar) (P : Type) offset_ok order (cs : list (lcall R P)) subs fams,
  Permutation subs (l_subs (calls offset_ok order cs)) -> Permutation fams (l_fams (calls offset_ok order cs)) ->
  exists uc, unit_cell subs fams = Ok uc /\
    Permutation (map (fun u => (u_pos u, u_norb u, u_uid u, u_alias u)) uc)
                (map (fun s => (sb_pos s, m_cols (sb_energy s), sb_uid s, sb_alias s)) subs) /\
    (forall i j u v, i < j -> nth_error uc i = Some u -> nth_error uc j = Some v -> cell_before u v) /\
    (forall i u, nth_error uc i = Some u ->
       map (fun h => (h_rel h, uid_at uc (h_to h), h_fam h)) (filter (fun h => negb (h_conj h)) (u_hops u))
       = map (fun ft => (t_rel (snd ft), Some (t_to (snd ft)), fst ft))
             (filter (fun ft => t_from (snd ft) =? u_uid u) (tagged_terms fams)) /\
       map (fun h => (h_rel h, uid_at uc (h_to h), h_fam h)) (filter (fun h => h_conj h) (u_hops u))
       = map (fun ft => (opposite (t_rel (snd ft)), Some (t_from (snd ft)), fst ft))
             (filter (fun ft => t_to (snd ft) =? u_uid u) (tagged_terms fams))) /\
    (forall a b rel, listed uc a b rel = listed uc b a (opposite rel)).
Proof. exact cell_facts. Qed.
Print Assumptions C04_unit_cell.

(** Alias site 2 is grouped with its original 0, before sublattice 1. *)
Example C04_example : exists uc, unit_cell (l_subs ex_lattice) (l_fams ex_lattice) = Ok uc /\
  map u_uid uc = [0; 2; 1] /\
  map u_hops uc =
   [ [Hop zero3 2 0 false; Hop (I3 1 (-1) 0) 2 0 false];
     [Hop (I3 0 (-1) 0) 2 0 true; Hop (I3 1 0 0) 1 1 false; Hop (I3 (-1) 0 0) 1 1 true];
     [Hop zero3 0 0 true; Hop (I3 (-1) 1 0) 0 0 true; Hop (I3 0 1 0) 1 0 false] ].
Proof. eexists. split; [vm_compute; reflexivity|]. split; reflexivity. Qed.
