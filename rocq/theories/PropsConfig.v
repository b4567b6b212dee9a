(* Property theorem C48: which configuration calls are accepted, and what the registries hold.
   Model: Lattice.v, ModelState.v, SystemBuild.v, Registry.v; proofs: RegistryProofs.v. *)
From Verif Require Import Base Scalar Foundation Lattice LatticeSpec LatticeProofs SystemBuild Registry ModelState ModelProofs RegistryProofs PropsLattice PropsModel.
From Coq Require Import Permutation.

(** Admissible energies: an onsite matrix is square, not empty, has a real diagonal and is upper
    triangular or Hermitian; a hopping matrix is not empty. *)
Definition admissible_onsite {R : scalar} (e : mat R) : Prop :=
  m_rows e = m_cols e /\ m_rows e <> 0 /\ (forall i, i < m_rows e -> m_at e i i = kconj (m_at e i i)) /\
  ((forall i j, j < i -> i < m_rows e -> m_at e i j = k0) \/
   (forall i j, i < m_rows e -> j < m_rows e -> m_at e i j = kconj (m_at e j i))).
Definition admissible_hopping {R : scalar} (e : mat R) : Prop := m_rows e <> 0 /\ m_cols e <> 0.

Definition sub_names {R P} (l : lattice R P) : list name := map (fun s => sb_name s) (l_subs l).
Definition fam_names {R P} (l : lattice R P) : list name := map (fun f => fm_name f) (l_fams l).

(** Sites [a] and [b] exist with [rows] and [cols] orbitals, are not one and the same site, and
    the bond between them is not stored yet in either direction. *)
Definition free_bond {R P} (l : lattice R P) (rel : idx3) (a b : name) (rows cols : nat) : Prop :=
  exists sa sb, In sa (l_subs l) /\ In sb (l_subs l) /\ sb_name sa = a /\ sb_name sb = b /\
    ~ (a = b /\ rel = zero3) /\ m_rows (sb_energy sa) = rows /\ m_rows (sb_energy sb) = cols /\
    (forall t, In t (all_terms l) -> ~ same_bond (Term rel (sb_uid sa) (sb_uid sb)) t).

Definition lattice_permits {R P} (offset_ok : P -> bool) (l : lattice R P) (c : lcall R P) : Prop :=
  match c with
  | AddSublattice n _ e => admissible_onsite e /\ n <> Blank /\ ~ In n (sub_names l)
  | AddAlias n o _ => In o (sub_names l) /\ n <> Blank /\ ~ In n (sub_names l)
  | RegisterHopping n e => n <> Blank /\ admissible_hopping e /\ ~ In n (fam_names l)
  | AddHopping rel a b f =>
      exists fm, In fm (l_fams l) /\ fm_name fm = f /\ free_bond l rel a b (m_rows (fm_energy fm)) (m_cols (fm_energy fm))
  | AddHoppingEnergy rel a b e =>
      free_bond l rel a b (m_rows e) (m_cols e) /\
      ((exists fm, In fm (l_fams l) /\ mat_eqb (fm_energy fm) e = true) \/ ~ In (Anon (length (l_fams l))) (fam_names l))
  | SetOffset p => offset_ok p = true
  | SetMinNeighbors _ => True
  end.

(* ------------------------------------------------------------------ C48 *)
(** A lattice call returns normally exactly when its condition holds, after any history. *)
Theorem C48_lattice_calls : forall (R : scalar) (P : Type) offset_ok order (cs : list (lcall R P)) c,
  (forall fs, Permutation (order fs) fs) ->
  let l := calls offset_ok order cs in
  snd (Lattice.call offset_ok order c l) = true <-> lattice_permits offset_ok l c.
Proof.
  intros R P offset_ok order cs c Ho l. pose proof (inv_calls R P offset_ok order cs) as I. fold l in I.
  destruct c; cbn [Lattice.call lattice_permits].
  - unfold add_sublattice. rewrite <- (onsite_ok_spec R e : _ <-> admissible_onsite e). destruct (onsite_ok e); cbn [negb]; [|split; [discriminate|tauto]].
    pose proof (make_uid_iff R P l n) as Hu. destruct (make_uid l n); split; try discriminate.
    + intros _. split; [auto|]. apply Hu. eauto.
    + reflexivity.
    + intros (_ & H). apply Hu in H as (? & ?). discriminate.
  - unfold add_alias. destruct (find_sub l orig) as [o|] eqn:Eo.
    + apply find_sub_some in Eo as (Ho' & <-). pose proof (make_uid_iff R P l n) as Hu. destruct (make_uid l n); split; try discriminate.
      * intros _. split; [now apply (in_map (fun s => sb_name s))|]. apply Hu. eauto.
      * reflexivity.
      * intros (_ & H). apply Hu in H as (? & ?). discriminate.
    + split; [discriminate|]. intros (H & _). apply find_sub_none in Eo. tauto.
  - exact (register_hopping_iff R P l n e).
  - exact (add_hopping_iff R P l rel from to fam I).
  - exact (add_hopping_energy_iff R P order Ho l rel from to e I).
  - unfold set_offset. destruct (offset_ok p); cbn; split; auto.
  - split; auto.
Qed.
Print Assumptions C48_lattice_calls.

(** Conditions of the calls on a model. *)
Definition model_permits {R P Shp Sy Fn} (padd : P -> P -> P) (offset_ok : P -> bool) (c : config R P Shp Sy Fn) (m : mcall R P Shp Sy Fn) : Prop :=
  match m with
  | AddPrimitive size => (c_ndim c <= 0 -> ix size = 1%Z) /\ (c_ndim c <= 1 -> iy size = 1%Z) /\ (c_ndim c <= 2 -> iz size = 1%Z)
  | AddShape s => offset_ok (padd (c_offset c) (sh_offset s)) = true
  | AttachLead dir _ => (dir <> 0 /\ Z.abs dir <= Z.of_nat (c_ndim c))%Z /\ c_ndim c <> 1
  | AddSiteGen n e _ => n <> Blank /\ admissible_onsite e /\ ~ In n (map fst (c_sites c))
  | AddHopGen n e _ => n <> Blank /\ admissible_hopping e /\ ~ In n (map fst (c_hops c))
  | _ => True
  end.

Theorem C48_model_calls : forall (R : scalar) (P Shp Sy Fn : Type) (B : builders R P Shp Sy Fn) padd peqb ok m st,
  snd (call B padd peqb ok m st) = true <-> model_permits padd ok (st_cfg st) m.
Proof.
  intros R P Shp Sy Fn B padd peqb ok m st. unfold call, do_call. cbn [snd]. destruct m; cbn [configure model_permits]; try (split; auto; fail).
  - rewrite <- primitive_ok_spec. destruct (primitive_ok _ _); cbn; split; auto.
  - destruct (ok _); cbn; split; auto.
  - destruct (Z.eqb_spec dir 0); [cbn; split; [discriminate|tauto]|]. destruct (Nat.eqb_spec (c_ndim (st_cfg st)) 1); [cbn; split; [discriminate|tauto]|].
    destruct (Z.ltb_spec (Z.of_nat (c_ndim (st_cfg st))) (Z.abs dir)); cbn; split; auto; try discriminate. intros ((_ & H') & _). lia.
  - destruct (register_spec R onsite_ok n e (c_sites (st_cfg st))) as (_ & Hi). rewrite (onsite_ok_spec R e : _ <-> admissible_onsite e) in Hi.
    destruct (register_family onsite_ok n e (c_sites (st_cfg st))) as [reg| |]; cbn [snd]; (split; [intros H; try discriminate; apply Hi; eauto|intros H; auto; apply Hi in H as (? & ?); discriminate]).
  - destruct (register_spec R hopping_ok n e (c_hops (st_cfg st))) as (_ & Hi). rewrite (hopping_ok_spec R e : _ <-> admissible_hopping e) in Hi.
    destruct (register_family hopping_ok n e (c_hops (st_cfg st))) as [reg| |]; cbn [snd]; (split; [intros H; try discriminate; apply Hi; eauto|intros H; auto; apply Hi in H as (? & ?); discriminate]).
  - destruct (peqb _ _); cbn; split; auto.
Qed.
Print Assumptions C48_model_calls.

(** An accepted generator appends its family, so that every family keeps the id it got; nothing
    else touches the registries. *)
Theorem C48_registered : forall (R : scalar) (P Shp Sy Fn : Type) (B : builders R P Shp Sy Fn) padd peqb ok m st,
  let st' := fst (call B padd peqb ok m st) in
  c_sites (st_cfg st') = c_sites (st_cfg st) ++ match m with AddSiteGen n e _ => if snd (call B padd peqb ok m st) then [(n, e)] else [] | _ => [] end /\
  c_hops (st_cfg st') = c_hops (st_cfg st) ++ match m with AddHopGen n e _ => if snd (call B padd peqb ok m st) then [(n, e)] else [] | _ => [] end.
Proof.
  intros R P Shp Sy Fn B padd peqb ok m st. cbv zeta. unfold call. rewrite call_cfg. exact (configure_registries R P Shp Sy Fn padd peqb ok m (st_cfg st)).
Qed.
Print Assumptions C48_registered.

(** Names are distinct and not blank, whatever calls (also rejected ones) and queries were made
    on a model of any lattice. *)
Theorem C48_names : forall (R : scalar) (P : Type) offset_ok order (cs : list (lcall R P)) subs fams reg hreg
    (Shp Sy Fn : Type) (B : builders R P Shp Sy Fn) padd peqb ok ops c,
  let l := calls offset_ok order cs in
  Permutation subs (l_subs l) -> Permutation fams (l_fams l) -> site_registry subs = Ok reg -> hopping_registry fams = Ok hreg ->
  c_sites c = map entry_of reg -> c_hops c = map entry_of hreg ->
  let c' := st_cfg (after B padd peqb ok ops c) in
  NoDup (map fst (c_sites c')) /\ ~ In Blank (map fst (c_sites c')) /\ NoDup (map fst (c_hops c')) /\ ~ In Blank (map fst (c_hops c')).
Proof.
  intros R P offset_ok order cs subs fams reg hreg Shp Sy Fn B padd peqb ok ops c l Hs Hf Hreg Hhreg Es Eh c'.
  assert (H : sound_names R (c_sites c') /\ sound_names R (c_hops c')); [|unfold sound_names in H; tauto].
  assert (H0 : sound_names R (c_sites c) /\ sound_names R (c_hops c)).
  { rewrite Es, Eh. split; [eapply start_sites_sound; eauto|eapply start_hops_sound; eauto]. }
  subst c'. unfold after, run. clear Es Eh.
  replace c with (st_cfg (fresh c : state R P Shp Sy Fn (b_LS B) (b_Sys B) (b_H B) (b_LH B))) in H0 by reflexivity. revert H0.
  generalize (fresh c : state R P Shp Sy Fn (b_LS B) (b_Sys B) (b_H B) (b_LH B)).
  induction ops as [|o ops IH]; intros st H0; [exact H0|]. cbn [fold_left]. apply IH. destruct o as [m|q]; cbn [step].
  - rewrite call_cfg. apply configure_sound; tauto.
  - rewrite ask_cfg. exact H0.
Qed.
Print Assumptions C48_names.

(** With distinct names, looking up a name or an id is exact, and [name_map] agrees. *)
Theorem C48_lookup : forall (R : scalar) (reg : list (name * mat R)) n i, NoDup (map fst reg) ->
  (reg_id reg n = Ok i <-> nth_error (map fst reg) i = Some n) /\
  (reg_id reg n = Throw <-> ~ In n (map fst reg)) /\
  (map_find (name_map reg) n = Some i <-> nth_error (map fst reg) i = Some n) /\
  (reg_name reg i = Ok n <-> nth_error (map fst reg) i = Some n) /\
  (forall e, reg_energy reg i = Ok e <-> nth_error (map snd reg) i = Some e).
Proof.
  intros R reg n i Hd. pose proof (reg_id_from_spec R reg 0 n i Hd) as H. rewrite Nat.sub_0_r in H.
  assert (Hid : reg_id reg n = Ok i <-> nth_error (map fst reg) i = Some n).
  { unfold reg_id. rewrite H. split; [tauto|]. intros X. split; [lia|auto]. }
  split; [exact Hid|]. split; [exact (reg_id_throw R reg 0 n)|]. split; [|split].
  - unfold name_map. rewrite name_map_in by (auto; cbn; tauto). cbn [map_find find option_map]. unfold reg_id in Hid. rewrite <- Hid.
    destruct (reg_id_from 0 reg n); split; intros X; congruence || discriminate || now injection X as ->.
  - unfold reg_name. rewrite nth_error_map. destruct (nth_error reg i); cbn; split; intros X; congruence.
  - intros e. unfold reg_energy. rewrite nth_error_map. destruct (nth_error reg i); cbn; split; intros X; congruence.
Qed.
Print Assumptions C48_lookup.

(** A matrix with one orbital for every family is not multi-orbital. *)
Theorem C48_single_orbital : forall (R : scalar) (reg : list (name * mat R)),
  has_multiple_orbitals reg = false <-> forall n e, In (n, e) reg -> m_rows e = 1 /\ m_cols e = 1.
Proof.
  intros R reg. unfold has_multiple_orbitals. split.
  - intros H n e Hin. assert (X : negb (m_rows e * m_cols e =? 1) = false).
    { destruct (negb _) eqn:E; [|reflexivity]. rewrite <- H. symmetry. apply existsb_exists. exists (n, e). auto. }
    apply negb_false_iff, Nat.eqb_eq in X. destruct (m_rows e) as [|[|]], (m_cols e) as [|[|]]; cbn in X; nia.
  - intros H. destruct (existsb _ reg) eqn:E; [|reflexivity]. apply existsb_exists in E as ((n, e) & Hin & X). destruct (H n e Hin) as (Er & Ec).
    cbn [snd] in X. rewrite Er, Ec in X. discriminate.
Qed.
Print Assumptions C48_single_orbital.

(** Two-dimensional lattice with one site family registered, one generator accepted, and four
    calls that are refused: a name that exists, direction 0 and 3, a third dimension. *)
Definition two_d : toy_config := Cfg 2 0%Z [(Nm 1, energy1 (4, 0)%Z)] [] (I3 1 1 1) None None 0%Z [] [] [] [].
Definition toy_call m st := call plain Z.add Z.eqb (fun o => Z.abs o <? 10)%Z m st.
Example C48_example :
  let st := fst (toy_call (AddSiteGen (Nm 2) (energy1 (5, 0)%Z) 0) (fresh two_d)) in
  map fst (c_sites (st_cfg st)) = [Nm 1; Nm 2] /\
  reg_id (c_sites (st_cfg st)) (Nm 2) = Ok 1 /\
  map (fun m => snd (toy_call m st))
    [AddSiteGen (Nm 2) (energy1 (6, 0)%Z) 0; AttachLead 0 (Shape 1 0%Z); AttachLead 3 (Shape 1 0%Z); AddPrimitive (I3 3 3 2);
     AttachLead (-2) (Shape 1 0%Z); AddPrimitive (I3 3 3 1); AddSiteGen (Nm 3) (energy1 (6, 0)%Z) 0]
  = [false; false; false; false; true; true; true].
Proof. repeat split; vm_compute; reflexivity. Qed.
Example C48_lattice_example :
  map (fun c => snd (Lattice.call (fun _ => true) (fun x => x) c ex_lattice))
    [AddAlias (Nm 4) (Nm 7) 0; AddAlias (Nm 4) (Nm 2) 0; AddHopping (I3 0 (-1) 0) (Nm 3) (Nm 2) (Nm 9); AddHopping (I3 0 2 0) (Nm 2) (Nm 3) (Nm 9);
     AddHoppingEnergy (I3 0 2 0) (Nm 2) (Nm 2) (energy1 (8, 1)%Z)]
  = [false; true; false; true; true].
Proof. vm_compute. reflexivity. Qed.
