(* C93: an object that is saved and loaded is the same object *)
From Coq Require Import String Ascii Permutation.
From Verif Require Import Base Rle Blocks Foundation Scalar Lattice LatticeSpec LatticeProofs LatticeFacts Registry Pickle PicklePr SaveLoad SaveLoadPr.
Local Notation len := Datatypes.length.
Local Open Scope list_scope.

(* ------------------------------------------------ the states of the C++ objects *)

(** Every system comes back as it was: registries, positions, sublattices, hoppings, boundaries. *)
Theorem C93_system : forall (R : scalar) (F : Type) offset_ok (s : psystem R F),
  system_set R F offset_ok (system_get R F s) = Ok s.
Proof. exact system_rt. Qed.
Print Assumptions C93_system.

(** Every lattice that was built by calls comes back: vectors, offset and the number of neighbours are the
    same, and so are the entries of the two maps, in whatever order they were walked.  (Everything that is
    proved of lattices is proved for every order of the maps, e.g. C02, C18, C43.) *)
Theorem C93_lattice :
  forall (R : scalar) (F : Type) zero offset_ok order (vs : list (cart F)) (cs : list (lcall R (cart F))) osub ofam,
  offset_ok vs zero = true ->
  let l := calls (offset_ok vs) order cs in
  Permutation osub (l_subs l) -> Permutation ofam (l_fams l) ->
  exists l', lattice_set R F offset_ok (lattice_get R F zero osub ofam (VLat R F vs l)) = Ok l' /\
    vl_vectors R F l' = vs /\
    Permutation (l_subs (vl_lat R F l')) (l_subs l) /\ Permutation (l_fams (vl_lat R F l')) (l_fams l) /\
    get_offset R F zero l' = (match l_offset l with Some p => p | None => zero end) /\
    l_min (vl_lat R F l') = l_min l.
Proof.
  intros R F zero offset_ok order vs cs osub ofam Hz l Ps Pf.
  destruct (lattice_rt R F zero offset_ok vs l osub ofam) as (l' & E & H1 & H2 & H3 & H4 & H5); auto.
  - intros p. apply (offset_calls_from R F (offset_ok vs) order cs new_lattice). discriminate.
  - exists l'. rewrite H1, H2, H3, H4, H5. repeat split; auto.
Qed.
Print Assumptions C93_lattice.

(** A lattice whose offset is too long for its vectors is not accepted. *)
Theorem C93_offset : forall (R : scalar) (F : Type) zero offset_ok (l : vlattice R F) osub ofam,
  offset_ok (vl_vectors R F l) (get_offset R F zero l) = false ->
  lattice_set R F offset_ok (lattice_get R F zero osub ofam l) = Throw.
Proof.
  intros R F zero offset_ok l osub ofam H.
  destruct (named_rt R F _ _ _ osub (sub_rt' R F)) as (ms & Ems & _).
  destruct (named_rt R F _ _ _ ofam (fam_rt' R F)) as (mf & Emf & _).
  unfold lattice_set, lattice_get, as_obj, field, item. cbn -[as_map as_seq get_offset].
  cbn [as_seq]. rewrite (oseq_map (VPos R F) (as_pos R F) (vl_vectors R F l)) by reflexivity. cbn -[as_map get_offset].
  rewrite Ems. cbn -[as_map get_offset]. rewrite Emf. cbn -[get_offset]. rewrite H. reflexivity.
Qed.
Print Assumptions C93_offset.

(** The state of an older version, with the lattice in place of the registries *)
Definition old_state {R F} (lat : pv R F) (s : psystem R F) : pv R F :=
  VObj R F "System" (VRec R F [("lattice", lat); ("positions", pos_get R F (py_pos R F s));
     ("compressed_sublattices", rle_get R F (py_subs R F s)); ("hopping_blocks", blocks_get R F (py_blocks R F s));
     ("boundaries", VSeq R F (map (boundary_get R F) (py_bounds R F s)))])%string.

(** It is read: everything as it was, and the registries hold the name and the energy of every hopping family
    and of every sublattice that is not an alias at its id.  (The registry of the sites exists when no
    sublattice was added after an alias, C02.) *)
Theorem C93_old_system :
  forall (R : scalar) (F : Type) zero offset_ok order (vs : list (cart F)) (cs : list (lcall R (cart F))) osub ofam s,
  offset_ok vs zero = true ->
  let l := calls (offset_ok vs) order cs in
  Permutation osub (l_subs l) -> Permutation ofam (l_fams l) ->
  (forall x, In x (l_subs l) -> sb_alias x = sb_uid x ->
     sb_uid x < len (filter (fun s => negb (is_alias s)) (l_subs l))) ->
  exists s', system_set R F offset_ok (old_state (lattice_get R F zero osub ofam (VLat R F vs l)) s) = Ok s' /\
    py_pos R F s' = py_pos R F s /\ py_subs R F s' = py_subs R F s /\ py_blocks R F s' = py_blocks R F s /\
    py_bounds R F s' = py_bounds R F s /\
    (forall x, In x (l_subs l) -> sb_alias x = sb_uid x ->
       nth_error (ra_names R (py_sites R F s')) (sb_uid x) = Some (sb_name x) /\
       nth_error (ra_energies R (py_sites R F s')) (sb_uid x) = Some (sb_energy x)) /\
    ra_names R (py_hops R F s') = map fm_name (l_fams l) /\
    ra_energies R (py_hops R F s') = map fm_energy (l_fams l).
Proof.
  intros R F zero offset_ok order vs cs osub ofam s Hz l Ps Pf Hreg.
  destruct (lattice_rt R F zero offset_ok vs l osub ofam) as (l' & E & H1 & H2 & H3 & H4 & H5); auto.
  { intros p. apply (offset_calls_from R F (offset_ok vs) order cs new_lattice). discriminate. }
  assert (Er : exists reg, site_registry osub = Ok reg).
  { apply (site_registry_iff R (cart F) (offset_ok vs) order cs osub Ps). intros x Ix Px. apply Hreg; auto. }
  destruct Er as (reg & Er).
  destruct (site_registry_content R (cart F) (offset_ok vs) order cs osub reg Ps Er) as (_ & Hc & _).
  pose proof (hopping_registry_ok R (cart F) (offset_ok vs) order cs ofam Pf) as Eh.
  unfold system_set, old_state, as_obj, field, item, contains.
  cbn -[lattice_set lattice_get pos_set pos_get rle_set rle_get blocks_set blocks_get as_seq boundary_set boundary_get site_registry hopping_registry].
  rewrite E. cbn -[pos_set pos_get rle_set rle_get blocks_set blocks_get as_seq boundary_set boundary_get site_registry hopping_registry].
  rewrite H2, H3, Er. cbn -[pos_set pos_get rle_set rle_get blocks_set blocks_get as_seq boundary_set boundary_get hopping_registry].
  rewrite Eh. cbn -[pos_set pos_get rle_set rle_get blocks_set blocks_get as_seq boundary_set boundary_get].
  rewrite pos_rt. cbn -[rle_set rle_get blocks_set blocks_get as_seq boundary_set boundary_get].
  rewrite rle_rt. cbn -[blocks_set blocks_get as_seq boundary_set boundary_get].
  rewrite blocks_rt. cbn -[boundary_set boundary_get].
  rewrite (oseq_map _ _ _ (boundary_rt R F)). cbn [obind].
  eexists. split; [reflexivity|]. cbn. repeat split.
  - intros. rewrite nth_error_map, (Hc x) by auto. reflexivity.
  - intros. rewrite nth_error_map, (Hc x) by auto. reflexivity.
  - rewrite map_map. reflexivity.
  - rewrite map_map. reflexivity.
Qed.
Print Assumptions C93_old_system.

(* ------------------------------------------------ the decorator [pickleable] *)

(** Without [props], as every result class uses it: the attributes come back. *)
Theorem C93_attributes : forall V version getattr (self : attrs V), NoDup (map fst self) ->
  exists s, getstate V version [] getattr self = Ok s /\ setstate V version [] [] s = Ok self.
Proof.
  intros V version getattr self H. eexists. split; [reflexivity|]. cbn. rewrite Z.eqb_refl. cbn.
  rewrite update_new by exact H. reflexivity.
Qed.
Print Assumptions C93_attributes.

(** Another version is refused; the state of an object from before there were versions is taken as it is. *)
Theorem C93_version : forall V version props (self d : attrs V) v pr, v <> version ->
  setstate V version props self (Versioned V v d pr) = Throw.
Proof. intros. cbn. destruct (Z.eqb_spec v version); [contradiction|reflexivity]. Qed.
Print Assumptions C93_version.
Theorem C93_unversioned : forall V version props (d : attrs V), NoDup (map fst d) ->
  setstate V version props [] (Plain V d) = Ok d.
Proof. intros V version props d H. cbn. rewrite update_new by exact H. reflexivity. Qed.
Print Assumptions C93_unversioned.

(** An object that already has attributes (restoring into a class with defaults): the saved value wins, what was
    not saved stays as it was. *)
Theorem C93_overwrites : forall V version props (self d : attrs V), NoDup (map fst d) ->
  exists x, setstate V version props self (Plain V d) = Ok x /\ setstate V version props self (Versioned V version d None) = Ok x /\
  forall n, lookup V x n = match lookup V d n with Some v => Some v | None => lookup V self n end.
Proof.
  intros V version props self d H. exists (update V self d). split; [reflexivity|]. split.
  - cbn. rewrite Z.eqb_refl. reflexivity.
  - intros n. now apply lookup_update.
Qed.
Print Assumptions C93_overwrites.
(** Which saved properties can be read back: only names of two characters of which the first one alone is not the name
    of a property; anything else is an error. *)
Theorem C93_props_when : forall V version props (self d pr : attrs V),
  (exists x, setstate V version props self (Versioned V version d (Some pr)) = Ok x) <->
  (forall n v, In (n, v) pr -> exists a b, n = [a; b] /\ ~ In [a] props).
Proof.
  intros V version props self d pr. cbn [setstate]. rewrite Z.eqb_refl. cbn [negb]. split.
  - intros [x H]. destruct (ofold _ _ _) as [l| |] eqn:E in H; try discriminate. cbn [obind] in H. destruct l; [|discriminate].
    apply names_spec in E. destruct E as [A B]. destruct (proj1 B eq_refl) as [_ C]. intros n v I. destruct (A n v I) as (a & b & ->).
    exists a, b. split; [reflexivity|]. eapply C, I.
  - intros H. destruct (names_ok V props pr []) as [l E]. { intros n v I. destruct (H n v I) as (a & b & Q & _). eauto. }
    rewrite E. cbn [obind]. apply names_spec in E. destruct E as [_ B].
    assert (l = []) as ->. { apply B. split; [reflexivity|]. intros a b v I. destruct (H _ _ I) as (c & e & Q & R). injection Q as <- <-. exact R. }
    eauto.
Qed.
Print Assumptions C93_props_when.

(** With [props] the saved values are never used: either the object cannot be loaded, or they are dropped. *)
Theorem C93_props : forall V version props getattr (self : attrs V) s x, NoDup (map fst self) ->
  getstate V version props getattr self = Ok s -> setstate V version props [] s = Ok x -> x = self.
Proof.
  intros V version props getattr self s x H Hg Hs. 
  assert (Q : exists pr, s = Versioned V version self pr).
  { unfold getstate in Hg. destruct props; [eexists; injection Hg as <-; reflexivity|].
    destruct (ofold _ _ _) in Hg; try discriminate. cbn in Hg. injection Hg as <-. eexists. reflexivity. }
  destruct Q as (pr & ->). cbn in Hs. rewrite Z.eqb_refl in Hs. cbn in Hs. rewrite update_new in Hs by exact H.
  destruct (ofold _ _ _) as [[|]| |] in Hs; cbn in Hs; congruence.
Qed.
Print Assumptions C93_props.
Definition str (s : string) : chars := list_ascii_of_string s.
(** A property whose name is longer than two characters makes the file unreadable. *)
Theorem C93_props_refuted :
  ~ (forall props (self : attrs nat) s, NoDup (map fst self) ->
       getstate nat 0 props (fun d n => match lookup nat d n with Some v => Ok v | None => Ok 7 end) self = Ok s ->
       exists x, setstate nat 0 props [] s = Ok x).
Proof.
  intros H. destruct (H [str "impl"] [(str "x", 1)] _ ltac:(repeat constructor; intros []) eq_refl) as (x & E).
  vm_compute in E. discriminate.
Qed.
Print Assumptions C93_props_refuted.

(* ------------------------------------------------ the files *)

(** A name without extension gets ".pbz", any other is used as it is; no other file is touched. *)
Theorem C93_file : forall content (d d' : fs content) c f, save content d c f = Ok d' ->
  exists p, target f p /\ d' p = Some (File c) /\ forall q, q <> p -> d' q = d q.
Proof. exact save_spec. Qed.
Print Assumptions C93_file.

(** What was saved is loaded again under the name it was saved with. *)
Definition C93_claim : Prop := forall content (d d' : fs content) c f,
  save content d c f = Ok d' -> load content d' f = Ok c.

(** Not when there is a file with the plain name: that one is loaded. *)
Theorem C93_refuted : ~ C93_claim.
Proof.
  intros H.
  pose (d := fun p => if path_eqb p (to_path (str "run/data")) then Some (File 1) else None : option (node nat)).
  assert (E : exists d', save nat d 2 (str "run/data") = Ok d' /\ load nat d' (str "run/data") = Ok 1).
  { eexists. split; vm_compute; reflexivity. }
  destruct E as (d' & E1 & E2). apply H in E1. congruence.
Qed.
Print Assumptions C93_refuted.

(** It is when the name has an extension, or nothing was there under the plain name. *)
Theorem C93_partial : forall content (d d' : fs content) c f, save content d c f = Ok d' ->
  has_ext (pa_name (to_path f)) \/ exists_ content d f = false -> load content d' f = Ok c.
Proof. exact save_load. Qed.
Print Assumptions C93_partial.

(** Under the full name it is always. *)
Theorem C93_full_name : forall content (d d' : fs content) c f g,
  save content d c f = Ok d' -> add_extension f = Ok g -> load content d' g = Ok c.
Proof. exact save_load_ext. Qed.
Print Assumptions C93_full_name.

(* ------------------------------------------------ examples *)
Example C93_example_names :
  map (fun s => omap string_of_list_ascii (add_extension (str s)))
    ["plain"; "has_one.ext"; "dir.d/plain"; "/abs//x/./y"; ".hidden"; "dot."; "sub/"; ""; "/"]%string
  = [Ok "plain.pbz"; Ok "has_one.ext"; Ok "dir.d/plain.pbz"; Ok "/abs/x/y.pbz"; Ok ".hidden.pbz"; Ok "dot..pbz";
     Ok "sub.pbz"; Throw; Throw]%string.
Proof. vm_compute. reflexivity. Qed.

(** Saved twice under one name: the second object is loaded, by the short and by the full name. *)
Example C93_example_files : exists d d',
  save nat (fun _ => None) 1 (str "out/result") = Ok d /\ save nat d 2 (str "out//result") = Ok d' /\
  load nat d' (str "out/result") = Ok 2 /\ load nat d' (str "out/result.pbz") = Ok 2 /\
  load nat d' (str "out/other") = Throw.
Proof. eexists. eexists. repeat split; vm_compute; reflexivity. Qed.

(** A lattice with two sublattices, an alias and two families is saved in another order of the maps. *)
Definition e1 (x : GI) : mat GI := Mat 1 1 (fun _ _ => x).
Definition ex_calls : list (lcall GI (cart Z)) :=
  [ AddSublattice (Nm 1) (0, 0, 0)%Z (e1 (3, 0)%Z); AddSublattice (Nm 2) (0, 1, 0)%Z (e1 (4, 0)%Z);
    AddAlias (Nm 3) (Nm 1) (2, 0, 0)%Z; AddHoppingEnergy (I3 0 0 0) (Nm 1) (Nm 2) (e1 (1, 1)%Z);
    AddHoppingEnergy (I3 1 0 0) (Nm 2) (Nm 3) (e1 (2, 0)%Z); SetOffset (1, 0, 0)%Z; SetMinNeighbors 2 ].
Definition ex_ok (vs : list (cart Z)) (p : cart Z) : bool := (fst (fst p) <=? Z.of_nat (len vs))%Z.
Example C93_example_lattice :
  let l := calls (ex_ok [(5, 0, 0); (0, 5, 0)]%Z) (fun x => x) ex_calls in
  len (l_subs l) = 3 /\ len (l_fams l) = 2 /\ l_offset l = Some (1, 0, 0)%Z /\
  match lattice_set GI Z ex_ok (lattice_get GI Z (0, 0, 0)%Z (rev (l_subs l)) (rev (l_fams l)) (VLat GI Z [(5, 0, 0); (0, 5, 0)]%Z l)) with
  | Ok l' => l_subs (vl_lat GI Z l') = rev (l_subs l) /\ map fm_terms (l_fams (vl_lat GI Z l')) = map fm_terms (rev (l_fams l)) /\
             l_min (vl_lat GI Z l') = 2%Z /\ vl_vectors GI Z l' = [(5, 0, 0); (0, 5, 0)]%Z
  | _ => False
  end.
Proof. vm_compute. repeat split; reflexivity. Qed.

(** Two attributes, and a property with a name of one letter that is asked for by a name of two. *)
Example C93_example_attributes :
  setstate nat 3 [] [] (Versioned nat 3 [(str "data", 5); (str "labels", 6)] None) = Ok [(str "data", 5); (str "labels", 6)] /\
  setstate nat 3 [str "kx"] [] (Versioned nat 3 [(str "data", 5)] (Some [(str "kx", 9)])) = Ok [(str "data", 5)] /\
  setstate nat 3 [str "impl"] [] (Versioned nat 3 [(str "data", 5)] (Some [(str "impl", 9)])) = Throw.
Proof. vm_compute. repeat split; reflexivity. Qed.
