(* Property theorems C12, C13, C14 (table part), C15, C16.
   Specifications: TablesSpec.v; proofs: TablesProofs.v. *)
From Verif Require Import Base Rle Blocks TablesSpec TablesProofs.

(* ------------------------------------------------------------------ C12 *)
(** Every history of additions and filters run on the compressed table gives the same
    labels, size, Hamiltonian size, per-site lookup as the plain list, and survives
    save/restore.  [norb] is the orbital count of each sublattice id. *)
Theorem C12_compressed_table_is_plain_list :
  forall norb ops l', plain_run norb ops [] = Some l' ->
  exists d, table_run norb ops [] = Ok d /\
    decompressed d = map fst l' /\ rle_size d = length l' /\
    hamiltonian_size d = sum_list (map snd l') /\
    rle_of_arrays (alias_ids d) (site_counts d) (orbital_counts d) = Ok d /\
    (forall i, i < length l' -> exists h, to_hamiltonian_indices d i = Ok (seq h (snd (nth i l' (0, 0))))
                                 /\ h = sum_list (map snd (firstn i l'))).
Proof. exact table_history. Qed.
Print Assumptions C12_compressed_table_is_plain_list.

Example C12_example :
  plain_run (fun id => S id) [AddSites 0 2; AddSites 1 2; AddSites 1 1;
     KeepOnly [true; false; false; true; true]; AddSites 2 1] []
  = Some [(0, 1); (1, 2); (1, 2); (2, 3)].
Proof. reflexivity. Qed.

(* ------------------------------------------------------------------ C13 *)
(** Full claim: every hopping table of the reduced system follows the surviving sites. *)
Definition C13_claim : Prop :=
  forall (P S : Type) (s : sysdata P S), sd_valid s <> [] -> wf_sys s ->
  exists s', remove_invalid s = Ok s' /\
    (forall f b b', nth_error (hb_blocks (sd_hops s)) f = Some b ->
       nth_error (hb_blocks (sd_hops s')) f = Some b' -> follows_sites (sd_valid s) b b').

(** It is false: indices of the surviving hoppings are not renumbered.  Three sites, one
    hopping 1-2, site 0 removed: the reduced system has two sites and the hopping (1,2). *)
Definition C13_witness : sysdata nat nat :=
  SysData [10; 11; 12] [Elem 0 3 1] (HB 3 [[(1, 2)]]) [] [false; true; true].

Theorem C13_remove_sites_refuted : ~ C13_claim.
Proof.
  intros H. destruct (H nat nat C13_witness) as (s' & E & F).
  - discriminate.
  - repeat split; simpl; repeat constructor.
  - vm_compute in E. injection E as <-.
    specialize (F 0 _ _ eq_refl eq_refl). destruct (F 1 2) as [F1 _].
    destruct (F1 (or_introl eq_refl)) as (i0 & j0 & _ & _ & E). vm_compute in E. discriminate.
Qed.
Print Assumptions C13_remove_sites_refuted.

(** Even the index range is violated by the witness: index 2 in a two-site system. *)
Theorem C13_index_range_refuted :
  exists s : sysdata nat nat, sd_valid s <> [] /\ wf_sys s /\
    exists s', remove_invalid s = Ok s' /\ length (sd_pos s') = 2 /\
      nth_error (hb_blocks (sd_hops s')) 0 = Some [(1, 2)].
Proof.
  exists C13_witness. split; [discriminate|]. split; [repeat split; simpl; repeat constructor|].
  eexists. split; [vm_compute; reflexivity|]. split; reflexivity.
Qed.
Print Assumptions C13_index_range_refuted.

(** What holds for every mask: positions and sublattices are those of the survivors, and a
    hopping is kept (under its old indices) exactly when both ends survive. *)
Theorem C13_remove_sites_partial :
  forall (P S : Type) (s : sysdata P S), sd_valid s <> [] -> wf_sys s ->
  exists s', remove_invalid s = Ok s' /\
    (forall k i, nth_error (survivors (sd_valid s)) k = Some i ->
        nth_error (sd_pos s') k = nth_error (sd_pos s) i /\
        nth_error (decompressed (sd_subs s')) k = nth_error (decompressed (sd_subs s)) i) /\
    length (sd_pos s') = length (survivors (sd_valid s)) /\
    rle_size (sd_subs s') = length (survivors (sd_valid s)) /\
    hb_n (sd_hops s') = length (survivors (sd_valid s)) /\
    (forall f b, nth_error (hb_blocks (sd_hops s)) f = Some b ->
       exists b', nth_error (hb_blocks (sd_hops s')) f = Some b' /\
         forall i j, In (i, j) b' <-> In (i, j) b /\ nth i (sd_valid s) false = true /\ nth j (sd_valid s) false = true).
Proof. exact @remove_invalid_tables. Qed.
Print Assumptions C13_remove_sites_partial.

(** The full claim, for main and boundary hoppings, when no removed site has a smaller index
    than an end of a surviving hopping (e.g. only trailing sites are removed). *)
Theorem C13_remove_trailing_sites_partial :
  forall (P S : Type) (s : sysdata P S), sd_valid s <> [] -> wf_sys s ->
  (forall bl i j, In bl (sd_hops s :: map fst (sd_bounds s)) -> In (i, j) (concat (hb_blocks bl)) ->
     nth i (sd_valid s) false = true -> nth j (sd_valid s) false = true ->
     forall k, k <= Nat.max i j -> nth k (sd_valid s) false = true) ->
  exists s', remove_invalid s = Ok s' /\
    (forall f b b', nth_error (hb_blocks (sd_hops s)) f = Some b ->
       nth_error (hb_blocks (sd_hops s')) f = Some b' -> follows_sites (sd_valid s) b b') /\
    (forall n f h0 h1 x b b', nth_error (sd_bounds s) n = Some (h0, x) ->
       nth_error (sd_bounds s') n = Some (h1, x) ->
       nth_error (hb_blocks h0) f = Some b ->
       nth_error (hb_blocks h1) f = Some b' -> follows_sites (sd_valid s) b b').
Proof. exact @remove_invalid_follows. Qed.
Print Assumptions C13_remove_trailing_sites_partial.

(** A case meeting the hypotheses: four sites, the last one removed, its hopping goes too. *)
Definition C13_ok : sysdata nat nat :=
  SysData [10; 11; 12; 13] [Elem 0 2 1; Elem 1 2 1] (HB 4 [[(0, 2); (1, 2); (1, 3)]])
          [(HB 4 [[(2, 0)]], 7)] [true; true; true; false].
Example C13_ok_hyps : sd_valid C13_ok <> [] /\ wf_sys C13_ok /\
  (forall bl i j, In bl (sd_hops C13_ok :: map fst (sd_bounds C13_ok)) -> In (i, j) (concat (hb_blocks bl)) ->
     nth i (sd_valid C13_ok) false = true -> nth j (sd_valid C13_ok) false = true ->
     forall k, k <= Nat.max i j -> nth k (sd_valid C13_ok) false = true).
Proof.
  split; [discriminate|]. split; [repeat split; simpl; repeat constructor|].
  intros bl i j Hbl Hin Ki Kj k Hk.
  assert (Hi : i < 3) by (destruct i as [|[|[|[|i]]]]; simpl in Ki; try lia; try discriminate; destruct i; discriminate).
  assert (Hj : j < 3) by (destruct j as [|[|[|[|j]]]]; simpl in Kj; try lia; try discriminate; destruct j; discriminate).
  destruct k as [|[|[|k]]]; try reflexivity; lia.
Qed.
Example C13_ok_run : remove_invalid C13_ok =
  Ok (SysData [10; 11; 12] [Elem 0 2 1; Elem 1 1 1] (HB 3 [[(0, 2); (1, 2)]]) [(HB 3 [[(2, 0)]], 7)] []).
Proof. reflexivity. Qed.

(* ------------------------------------------------------------------ C14 (table part) *)
(** The family holds exactly its previous hoppings and the requested ones (each stored once,
    smaller index first); other families are untouched; unequal lengths are rejected. *)
Theorem C14_append_exact_partial :
  forall h f rows cols b,
  length rows = length cols -> nth_error (hb_blocks h) f = Some b ->
  exists h' b', hb_append h f rows cols = Ok h' /\
    nth_error (hb_blocks h') f = Some b' /\ NoDup b' /\
    (forall g, g <> f -> nth_error (hb_blocks h') g = nth_error (hb_blocks h) g) /\
    (forall i j, In (i, j) b' <-> In (i, j) b \/ (i <= j /\ requested rows cols i j)).
Proof. exact append_exact. Qed.
Print Assumptions C14_append_exact_partial.

Theorem C14_append_rejects_unequal :
  forall h f rows cols, length rows <> length cols -> hb_append h f rows cols = Throw.
Proof. exact BlocksProofs.hb_append_mismatch. Qed.
Print Assumptions C14_append_rejects_unequal.

Example C14_example :
  hb_append (HB 4 [[(0, 1)]; []]) 1 [3; 0; 2; 3] [1; 2; 0; 1]
  = Ok (HB 4 [[(0, 1)]; [(0, 2); (1, 3)]]).
Proof. reflexivity. Qed.

(* ------------------------------------------------------------------ C15 *)
Theorem C15_save_restore : forall h, hb_deserialize (hb_n h) (hb_serialize h) = Ok h.
Proof. exact BlocksProofs.hb_roundtrip. Qed.
Print Assumptions C15_save_restore.

Theorem C15_counts : forall h, in_range_table h ->
  hb_nnz h = length (concat (hb_blocks h)) /\
  exists c, hb_count_neighbors h = Ok c /\ length c = hb_n h /\
    (forall i, nth i c 0 = incident (concat (hb_blocks h)) i) /\
    sum_list c = 2 * hb_nnz h.
Proof. exact table_counts. Qed.
Print Assumptions C15_counts.

Theorem C15_tocsr : forall h, in_range_table h -> NoDup (concat (hb_blocks h)) ->
  exists m, hb_tocsr h = Ok m /\
    (forall c f, In (c, f) m <-> exists b, nth_error (hb_blocks h) f = Some b /\ In c b) /\
    length m = hb_nnz h.
Proof. exact table_tocsr. Qed.
Print Assumptions C15_tocsr.

Definition C15_h : hblocks := HB 4 [[(0, 1); (1, 2)]; [(3, 0); (2, 2)]].
Example C15_example : in_range_table C15_h /\ NoDup (concat (hb_blocks C15_h)) /\
  hb_count_neighbors C15_h = Ok [2; 2; 3; 1].
Proof.
  split; [|split; [|reflexivity]]; [unfold in_range_table, in_range_pairs; simpl; repeat constructor|].
  simpl. repeat constructor; simpl; intuition congruence.
Qed.

(* ------------------------------------------------------------------ C16 *)
Theorem C16_ham_indices_partition : forall d,
  (forall i, i < rle_size d -> exists l, to_hamiltonian_indices d i = Ok l /\
       length l = snd (nth i (site_list d) (0, 0))) /\
  (forall i j li lj, to_hamiltonian_indices d i = Ok li -> to_hamiltonian_indices d j = Ok lj ->
       i <> j -> forall x, In x li -> ~ In x lj) /\
  (forall x, x < hamiltonian_size d <-> exists i l, to_hamiltonian_indices d i = Ok l /\ In x l) /\
  (forall i, rle_size d <= i -> to_hamiltonian_indices d i = Throw).
Proof. exact ham_index_partition. Qed.
Print Assumptions C16_ham_indices_partition.

Theorem C16_ham_indices_positions : forall (P : Type) d (pos : list P) dflt, length pos = rle_size d ->
  exists ep, expanded_positions d pos dflt = Ok ep /\
    length ep = hamiltonian_size d /\
    forall i l x, to_hamiltonian_indices d i = Ok l -> In x l -> nth_error ep x = nth_error pos i.
Proof. exact @ham_index_positions. Qed.
Print Assumptions C16_ham_indices_positions.

(** The index where the Hamiltonian builder writes orbital [o] of site [i] is the [o]-th
    Hamiltonian index of the site -- for tables sorted by orbital count (which [verify]
    checks after the lattice part is built). *)
Theorem C16_builder_indices_partial : forall d i l o,
  is_sorted (orbital_counts d) = true ->
  to_hamiltonian_indices d i = Ok l -> o < length l ->
  exists sh, translator_start d (length l) = Ok sh /\
    translated_index_Z sh (length l) o i = Z.of_nat (nth o l 0).
Proof. exact ham_index_builder. Qed.
Print Assumptions C16_builder_indices_partial.

(** Without sortedness (a site generator may append a smaller-orbital sublattice at the end)
    the builder writes to a different index than the one reported to the user. *)
Theorem C16_builder_indices_refuted :
  exists d i l o sh, to_hamiltonian_indices d i = Ok l /\ o < length l /\
    translator_start d (length l) = Ok sh /\
    translated_index_Z sh (length l) o i <> Z.of_nat (nth o l 0).
Proof.
  exists [Elem 0 1 1; Elem 1 1 2; Elem 2 1 1], 2, [3], 0. eexists.
  split; [reflexivity|]. split; [simpl; lia|]. split; [reflexivity|]. vm_compute. discriminate.
Qed.
Print Assumptions C16_builder_indices_refuted.

Example C16_example :
  to_hamiltonian_indices [Elem 1 2 1; Elem 0 3 2; Elem 2 1 3] 3 = Ok [4; 5] /\
  hamiltonian_size [Elem 1 2 1; Elem 0 3 2; Elem 2 1 3] = 11 /\
  expanded_positions [Elem 0 1 1; Elem 1 2 2] [7; 8; 9] 0 = Ok [7; 8; 8; 9; 9].
Proof. repeat split. Qed.
