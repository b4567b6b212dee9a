(* Lemmas behind the property theorems C01-C04. *)
From Verif Require Import Base Rle Blocks Foundation Scalar Lattice LatticeSpec LatticeProofs IndexProofs DanglingProofs UnitCellProofs.
From Coq Require Import Permutation Sorted.

Section Facts.
  Variable R : scalar.
  Variable P : Type.
  Variable offset_ok : P -> bool.
  Variable order : list (family R) -> list (family R).
  Notation calls := (@calls R P offset_ok order).
  Notation call := (@call R P offset_ok order).

  (* ---------------------------------------------------------------- C01 *)
  Lemma bonds_distinct : forall cs,
    pairwise (fun a b => ~ same_bond a b) (all_terms (calls cs)) /\
    (forall t, In t (all_terms (calls cs)) -> ~ (t_from t = t_to t /\ t_rel t = zero3)).
  Proof.
    intros cs. pose proof (inv_calls R P offset_ok order cs) as I. split.
    - apply FOP_pairwise; [|apply (li_bonds _ _ _ I)]. intros a b H1 H2. apply H1. apply same_bond_sym; auto.
    - intros t Ht. unfold all_terms in Ht. apply in_flat_map in Ht. destruct Ht as (f & Hf & Ht).
      destruct (li_terms _ _ _ I f t Hf Ht) as (a & b & _ & _ & _ & _ & _ & _ & H). exact H.
  Qed.

  Lemma find_sub_in : forall (l : lattice R P) s, lat_inv R P l -> In s (l_subs l) -> find_sub l (sb_name s) = Some s.
  Proof.
    intros l s I Hs. unfold find_sub. pose proof (li_names _ _ _ I) as ND. revert ND Hs. generalize (l_subs l) as L.
    induction L as [|x L IH]; intros ND Hs; [contradiction|]. cbn [find map] in *. inversion ND as [|? ? N1 N2]; subst.
    destruct (name_eqb_spec (sb_name x) (sb_name s)) as [E|E].
    - destruct Hs as [->|Hs]; [reflexivity|]. exfalso. apply N1. rewrite E. apply in_map; auto.
    - destruct Hs as [->|Hs]; [congruence|]. auto.
  Qed.

  Lemma duplicate_rejected : forall cs rel a b fam sa sb t,
    In sa (l_subs (calls cs)) -> In sb (l_subs (calls cs)) -> sb_name sa = a -> sb_name sb = b ->
    In t (all_terms (calls cs)) -> same_bond (Term rel (sb_uid sa) (sb_uid sb)) t ->
    call (AddHopping rel a b fam) (calls cs) = (calls cs, false).
  Proof.
    intros cs rel a b fam sa sb t Ha Hb <- <- Ht Hs. pose proof (inv_calls R P offset_ok order cs) as I.
    cbn [Lattice.call]. unfold add_hopping. destruct (name_eqb _ _ && _); [reflexivity|].
    rewrite (find_sub_in _ _ I Ha), (find_sub_in _ _ I Hb). destruct (find_fam _ fam); [|reflexivity].
    destruct (_ || _); [reflexivity|].
    assert (E : existsb (term_eqb (Term rel (sb_uid sa) (sb_uid sb))) (all_terms (calls cs)) = true).
    { apply existsb_exists. exists t. split; [auto|]. destruct (term_eqb_spec (Term rel (sb_uid sa) (sb_uid sb)) t); [auto|contradiction]. }
    rewrite E. reflexivity.
  Qed.

  Lemma self_rejected : forall l a fam, call (AddHopping zero3 a a fam) l = (l, false).
  Proof.
    intros. cbn [Lattice.call]. unfold add_hopping. destruct (name_eqb_spec a a); [|congruence]. reflexivity.
  Qed.

  (** An accepted hopping is stored: exactly one term more, in the named family. *)
  Lemma accepted_added : forall cs rel a b fam l', call (AddHopping rel a b fam) (calls cs) = (l', true) ->
    exists sa sb, In sa (l_subs (calls cs)) /\ In sb (l_subs (calls cs)) /\ sb_name sa = a /\ sb_name sb = b /\
      Permutation (all_terms l') (Term rel (sb_uid sa) (sb_uid sb) :: all_terms (calls cs)) /\
      l_subs l' = l_subs (calls cs).
  Proof.
    intros cs rel a b fam l' H. pose proof (inv_calls R P offset_ok order cs) as I. cbn [Lattice.call] in H.
    unfold add_hopping in H. destruct (name_eqb _ _ && _); [discriminate|].
    destruct (find_sub _ a) as [sa|] eqn:Ea; [|discriminate]. destruct (find_sub _ b) as [sb|] eqn:Eb; [|discriminate].
    destruct (find_fam _ fam) as [f|] eqn:Ef; [|discriminate]. destruct (_ || _); [discriminate|].
    destruct (existsb _ _); [discriminate|]. injection H as <-.
    apply find_sub_some in Ea. apply find_sub_some in Eb. apply find_fam_some in Ef.
    exists sa, sb. destruct Ea, Eb, Ef. repeat (split; [assumption|]). split; [|reflexivity].
    apply Permutation_sym. apply push_terms_perm; [apply (li_fnames _ _ _ I)|]. subst fam. apply in_map; auto.
  Qed.

  (* ---------------------------------------------------------------- C02 *)
  Lemma ids_dense : forall cs,
    map sb_uid (l_subs (calls cs)) = seq 0 (length (l_subs (calls cs))) /\
    map fm_id (l_fams (calls cs)) = seq 0 (length (l_fams (calls cs))) /\
    NoDup (map sb_name (l_subs (calls cs))) /\ NoDup (map fm_name (l_fams (calls cs))).
  Proof. intros cs. destruct (inv_calls R P offset_ok order cs). auto. Qed.

  Lemma hopping_registry_ok : forall cs fams, Permutation fams (l_fams (calls cs)) ->
    hopping_registry fams = Ok (map (fun f => Some (fm_name f, fm_energy f)) (l_fams (calls cs))).
  Proof.
    intros cs fams Hp. pose proof (inv_calls R P offset_ok order cs) as I.
    change (hopping_registry fams) with (ofold (placing Throw (@fm_id R) (fun f => (fm_name f, fm_energy f))) fams (repeat None (length fams))).
    rewrite (place_all Throw _ _ _ _ (li_fids _ _ _ I) Hp). rewrite map_map. reflexivity.
  Qed.

  Lemma ofold_filter : forall {A B} (p : B -> bool) (f : A -> B -> outcome A) l a,
    ofold (fun a b => if p b then Ok a else f a b) l a = ofold f (filter (fun b => negb (p b)) l) a.
  Proof.
    intros A B p f. induction l as [|b l IH]; intros a; [reflexivity|]. cbn [ofold filter].
    destruct (p b); cbn [obind negb]; [auto|]. cbn [ofold]. destruct (f a b); cbn [obind]; auto.
  Qed.

  Lemma perm_filter : forall {A} (p : A -> bool) l1 l2, Permutation l1 l2 -> Permutation (filter p l1) (filter p l2).
  Proof.
    intros A p l1 l2 H. induction H as [|x l l' H IH|x y l|l l' l'' H IH H' IH']; cbn.
    - auto.
    - destruct (p x); auto.
    - destruct (p y), (p x); auto. apply perm_swap.
    - eapply perm_trans; eauto.
  Qed.

  Lemma is_alias_false : forall s : sublattice R P, is_alias s = false <-> primary s.
  Proof. intros s. unfold is_alias, primary. rewrite negb_false_iff, Nat.eqb_eq. reflexivity. Qed.

  Lemma site_registry_fold : forall subs : list (sublattice R P),
    site_registry subs = ofold (placing Throw (@sb_uid R P) (fun s => (sb_name s, sb_energy s)))
      (filter (fun s => negb (is_alias s)) subs) (repeat None (length (filter (fun s => negb (is_alias s)) subs))).
  Proof.
    intros. unfold site_registry.
    rewrite <- (ofold_filter (@is_alias R P) (placing Throw (@sb_uid R P) (fun s => (sb_name s, sb_energy s)))).
    reflexivity.
  Qed.

  Definition primaries (subs : list (sublattice R P)) := filter (fun s => negb (is_alias s)) subs.

  Lemma in_primaries : forall s subs, In s (primaries subs) <-> In s subs /\ primary s.
  Proof. intros. unfold primaries. rewrite filter_In, negb_true_iff, is_alias_false. reflexivity. Qed.

  Lemma primaries_nodup : forall cs, NoDup (map (@sb_uid R P) (primaries (l_subs (calls cs)))).
  Proof.
    intros cs. pose proof (inv_calls R P offset_ok order cs) as I.
    assert (ND : NoDup (map (@sb_uid R P) (l_subs (calls cs)))) by (rewrite (li_uids _ _ _ I); apply seq_NoDup).
    revert ND. generalize (l_subs (calls cs)) as L. induction L as [|x L IH]; intros ND; [constructor|].
    cbn [map] in ND. inversion ND as [|? ? N1 N2]; subst. unfold primaries. cbn [filter].
    destruct (negb (is_alias x)); [|apply IH; auto]. cbn [map]. constructor; [|apply IH; auto].
    intros H. apply N1. apply in_map_iff in H. destruct H as (y & E & Hy). apply filter_In in Hy. rewrite <- E. apply in_map. tauto.
  Qed.

  Lemma site_registry_iff : forall cs subs, Permutation subs (l_subs (calls cs)) ->
    (exists reg, site_registry subs = Ok reg) <->
    (forall s, In s (l_subs (calls cs)) -> primary s -> sb_uid s < length (primaries (l_subs (calls cs)))).
  Proof.
    intros cs subs Hp. rewrite site_registry_fold.
    pose proof (perm_filter (fun s => negb (is_alias s)) _ _ Hp) as Hp2. fold (primaries subs) in *. fold (primaries (l_subs (calls cs))) in *.
    split.
    - intros (reg & E) s Hs Hpr.
      destruct (Nat.lt_ge_cases (sb_uid s) (length (primaries (l_subs (calls cs))))) as [H|H]; [auto|exfalso].
      eapply (place_fails Throw (@sb_uid R P) (fun s => (sb_name s, sb_energy s)) (primaries subs) _ s); [|..|exact E].
      + discriminate.
      + apply (Permutation_in _ (Permutation_sym Hp2)). apply in_primaries. auto.
      + rewrite repeat_length, (Permutation_length Hp2). auto.
    - intros H. destruct (place_gen Throw (@sb_uid R P) (fun s => (sb_name s, sb_energy s)) (primaries subs) (repeat None (length (primaries subs)))) as (a & E & _).
      + intros s Hs. rewrite repeat_length, (Permutation_length Hp2). apply (Permutation_in _ Hp2) in Hs.
        apply in_primaries in Hs. apply H; tauto.
      + eapply Permutation_NoDup; [apply Permutation_map; apply Permutation_sym; exact Hp2|]. apply primaries_nodup.
      + eauto.
  Qed.

  Lemma site_registry_content : forall cs subs reg, Permutation subs (l_subs (calls cs)) ->
    site_registry subs = Ok reg ->
    length reg = length (primaries (l_subs (calls cs))) /\
    (forall s, In s (l_subs (calls cs)) -> primary s -> nth_error reg (sb_uid s) = Some (Some (sb_name s, sb_energy s))) /\
    (forall i, i < length reg -> exists s, In s (l_subs (calls cs)) /\ primary s /\ sb_uid s = i).
  Proof.
    intros cs subs reg Hp E.
    assert (B : forall s, In s (l_subs (calls cs)) -> primary s -> sb_uid s < length (primaries (l_subs (calls cs)))).
    { apply (site_registry_iff cs subs Hp). eauto. }
    rewrite site_registry_fold in E.
    pose proof (perm_filter (fun s => negb (is_alias s)) _ _ Hp) as Hp2. fold (primaries subs) in *. fold (primaries (l_subs (calls cs))) in *.
    destruct (place_gen Throw (@sb_uid R P) (fun s => (sb_name s, sb_energy s)) (primaries subs) (repeat None (length (primaries subs)))) as (a & E' & L & I1 & I2).
    - intros s Hs. rewrite repeat_length, (Permutation_length Hp2). apply (Permutation_in _ Hp2) in Hs.
      apply in_primaries in Hs. apply B; tauto.
    - eapply Permutation_NoDup; [apply Permutation_map; apply Permutation_sym; exact Hp2|]. apply primaries_nodup.
    - rewrite E' in E. injection E as <-. rewrite repeat_length, (Permutation_length Hp2) in L. split; [exact L|]. split.
      + intros s Hs Hpr. apply I1. apply (Permutation_in _ (Permutation_sym Hp2)). apply in_primaries. auto.
      + intros i Hi. rewrite L in Hi.
        assert (Inc : incl (seq 0 (length (primaries (l_subs (calls cs))))) (map (@sb_uid R P) (primaries (l_subs (calls cs))))).
        { apply NoDup_length_incl.
          - apply primaries_nodup.
          - rewrite seq_length, map_length. auto.
          - intros x Hx. apply in_map_iff in Hx. destruct Hx as (s & <- & Hs). apply in_primaries in Hs. apply in_seq.
            split; [lia|]. apply B; tauto. }
        specialize (Inc i ltac:(apply in_seq; lia)). apply in_map_iff in Inc. destruct Inc as (s & E1 & Hs).
        apply in_primaries in Hs. exists s. tauto.
  Qed.

  (** The energy a site of any sublattice gets through its alias id. *)
  Lemma site_registry_alias : forall cs subs reg s o, Permutation subs (l_subs (calls cs)) ->
    site_registry subs = Ok reg ->
    In s (l_subs (calls cs)) -> In o (l_subs (calls cs)) -> sb_uid o = sb_alias s -> primary o ->
    nth_error reg (sb_alias s) = Some (Some (sb_name o, sb_energy s)).
  Proof.
    intros cs subs reg s o Hp E Hs Ho Eo Po. pose proof (inv_calls R P offset_ok order cs) as I.
    destruct (site_registry_content cs subs reg Hp E) as (_ & C & _). rewrite <- Eo. rewrite C by auto.
    destruct (li_alias _ _ _ I s Hs) as (o' & O1 & O2 & O3 & _).
    assert (o' = o) by (eapply sub_uid_inj; eauto; congruence). subst o'. congruence.
  Qed.

  (* ---------------------------------------------------------------- C03 *)
  Definition by_energy (c : lcall R P) : bool := match c with AddHoppingEnergy _ _ _ _ => true | _ => false end.

  Lemma rejected_unchanged : forall c l, by_energy c = false -> snd (call c l) = false -> fst (call c l) = l.
  Proof.
    intros c l B. destruct c; cbn in B; try discriminate; cbn [Lattice.call].
    - unfold add_sublattice. destruct (onsite_ok e); cbn [negb]; [|reflexivity]. destruct (make_uid l n); [discriminate|reflexivity].
    - unfold add_alias. destruct (find_sub l orig); [|reflexivity]. destruct (make_uid l n); [discriminate|reflexivity].
    - unfold register_hopping_energy. destruct (name_eqb n Blank); [reflexivity|]. destruct (hopping_ok e); [|reflexivity]. cbn [negb].
      destruct (find_fam l n); [reflexivity|discriminate].
    - unfold add_hopping. destruct (_ && _); [reflexivity|]. destruct (find_sub l from); [|reflexivity].
      destruct (find_sub l to); [|reflexivity]. destruct (find_fam l fam); [|reflexivity].
      destruct (_ || _); [reflexivity|]. destruct (existsb _ _); [reflexivity|discriminate].
    - unfold set_offset. destruct (offset_ok p); [discriminate|reflexivity].
  Qed.

  (** A rejected by-energy call leaves at most one new, unused hopping family behind. *)
  Lemma rejected_by_energy : forall rel a b e l, snd (call (AddHoppingEnergy rel a b e) l) = false ->
    fst (call (AddHoppingEnergy rel a b e) l) = l \/
    (fst (call (AddHoppingEnergy rel a b e) l) =
       Lat (l_subs l) (l_fams l ++ [Fam (Anon (length (l_fams l))) e (length (l_fams l)) []]) (l_offset l) (l_min l) /\
     find (fun f => mat_eqb (fm_energy f) e) (order (l_fams l)) = None).
  Proof.
    intros rel a b e l. cbn [Lattice.call]. unfold add_hopping_energy.
    destruct (find _ (order (l_fams l))) as [f|] eqn:F.
    - intros H. left. apply (rejected_unchanged (AddHopping rel a b (fm_name f)) l); auto.
    - destruct (register_hopping_energy (Anon (length (l_fams l))) e l) as [l' [|]] eqn:E.
      + intros H. right. split; [|reflexivity].
        pose proof (rejected_unchanged (AddHopping rel a b (Anon (length (l_fams l)))) l' eq_refl H) as U. cbn [Lattice.call] in U. rewrite U.
        unfold register_hopping_energy in E. cbn [name_eqb] in E. destruct (hopping_ok e); cbn [negb] in E; [|discriminate].
        destruct (find_fam l _); [discriminate|]. injection E as <-. reflexivity.
      + intros _. left. pose proof (rejected_unchanged (RegisterHopping (Anon (length (l_fams l))) e) l eq_refl) as U.
        cbn [Lattice.call] in U. rewrite E in U. apply U. reflexivity.
  Qed.

  (* ---------------------------------------------------------------- C04 *)
  Lemma count_key : forall {A K} (key : A -> K) (k : K) (p : A -> bool) l,
    NoDup (map key l) -> (forall x, In x l -> p x = true <-> key x = k) ->
    (exists x, In x l /\ p x = true) -> length (filter p l) = 1.
  Proof.
    intros A K key k p l. induction l as [|x l IH]; intros ND H (y & Hy & Py); [contradiction|].
    cbn [map] in ND. inversion ND as [|? ? N1 N2]; subst. cbn [filter].
    assert (Z : p x = true -> filter p l = []).
    { intros Px. apply (H x (or_introl eq_refl)) in Px. destruct (filter p l) as [|z t] eqn:E; [reflexivity|exfalso].
      assert (Hz : In z (filter p l)) by (rewrite E; left; auto). apply filter_In in Hz. destruct Hz as [Hz1 Hz2].
      apply (H z (or_intror Hz1)) in Hz2. apply N1. rewrite Px, <- Hz2. apply in_map; auto. }
    destruct (p x) eqn:Px.
    - rewrite Z by auto. reflexivity.
    - apply IH; auto; [intros; apply H; right; auto|]. destruct Hy as [->|Hy]; [congruence|eauto].
  Qed.

  Lemma filter_none : forall {A} (p : A -> bool) l, (forall x, In x l -> p x = false) -> filter p l = [].
  Proof. intros A p. induction l as [|x l IH]; intros H; [reflexivity|]. cbn. rewrite H by (left; auto). apply IH. intros; apply H; right; auto. Qed.

  Lemma listed_0_1 : forall (uc : list (usite P)) a b rel, uc_ok uc ->
    (listed uc a b rel = 1 /\ exists u h, nth_error uc a = Some u /\ In h (u_hops u) /\ h_rel h = rel /\ h_to h = b) \/
    (listed uc a b rel = 0 /\ ~ exists u h, nth_error uc a = Some u /\ In h (u_hops u) /\ h_rel h = rel /\ h_to h = b).
  Proof.
    intros uc a b rel U. unfold listed. destruct (nth_error uc a) as [u|] eqn:E.
    2:{ right. split; [reflexivity|]. intros (u & h & H & _). discriminate. }
    set (p := fun h => eqb3 (h_rel h) rel && (h_to h =? b)).
    assert (Hp : forall h, p h = true <-> (h_rel h, h_to h) = (rel, b)).
    { intros h. unfold p. rewrite andb_true_iff, Nat.eqb_eq. destruct (eqb3_spec (h_rel h) rel); split.
      - intros [_ ->]. congruence.
      - injection 1 as _ ->. auto.
      - intros [X _]; discriminate.
      - injection 1 as H _. contradiction. }
    destruct (existsb p (u_hops u)) eqn:Ex.
    - left. apply existsb_exists in Ex. destruct Ex as (h & H1 & H2). split.
      + apply (count_key (fun h => (h_rel h, h_to h)) (rel, b)); [eapply uc_nodup; eauto|intros; apply Hp|eauto].
      + apply Hp in H2. injection H2 as H2 H3. eauto 6.
    - right. split.
      + rewrite filter_none; [reflexivity|]. intros h Hh. destruct (p h) eqn:E1; [|auto].
        assert (existsb p (u_hops u) = true) by (apply existsb_exists; eauto). congruence.
      + intros (u' & h & H1 & H2 & H3 & H4). injection H1 as <-.
        assert (existsb p (u_hops u) = true) by (apply existsb_exists; exists h; split; [auto|apply Hp; congruence]). congruence.
  Qed.

  Lemma listed_sym : forall (uc : list (usite P)) a b rel, uc_ok uc -> listed uc a b rel = listed uc b a (opposite rel).
  Proof.
    intros uc a b rel U.
    assert (G : forall a b rel, (exists u h, nth_error uc a = Some u /\ In h (u_hops u) /\ h_rel h = rel /\ h_to h = b) ->
       exists u h, nth_error uc b = Some u /\ In h (u_hops u) /\ h_rel h = opposite rel /\ h_to h = a).
    { clear - U. intros a b rel (u & h & H1 & H2 & <- & <-). destruct (uc_sym _ U a u h H1 H2) as (u' & h' & E1 & E2 & E3 & E4 & _). eauto 6. }
    assert (O : opposite (opposite rel) = rel) by (destruct rel; unfold opposite; cbn; rewrite !Z.opp_involutive; auto).
    destruct (listed_0_1 uc a b rel U) as [[E1 X1]|[E1 X1]], (listed_0_1 uc b a (opposite rel) U) as [[E2 X2]|[E2 X2]]; rewrite E1, E2; auto.
    - exfalso. apply X2. apply G. auto.
    - exfalso. apply X1. apply G in X2. rewrite O in X2. auto.
  Qed.

  Lemma cell_facts : forall cs subs fams,
    Permutation subs (l_subs (calls cs)) -> Permutation fams (l_fams (calls cs)) ->
    exists uc, unit_cell subs fams = Ok uc /\
      Permutation (map (fun u => (u_pos u, u_norb u, u_uid u, u_alias u)) uc)
                  (map (fun s => (sb_pos s, m_cols (sb_energy s), sb_uid s, sb_alias s)) subs) /\
      (forall i j u v, i < j -> nth_error uc i = Some u -> nth_error uc j = Some v -> cell_before u v) /\
      (forall i u, nth_error uc i = Some u ->
         map (fun h => (h_rel h, uid_at uc (h_to h), h_fam h)) (filter (fun h => negb (h_conj h)) (u_hops u))
         = map (fun ft => (t_rel (snd ft), Some (t_to (snd ft)), fst ft))
               (filter (fun ft => t_from (snd ft) =? u_uid u) (tagged_terms fams)) /\
         map (fun h => (h_rel h, uid_at uc (h_to h), h_fam h)) (filter (fun h => h_conj h) (u_hops u))
         = map (fun ft => (opposite (t_rel (snd ft)), Some (t_from (snd ft)), fst ft))
               (filter (fun ft => t_to (snd ft) =? u_uid u) (tagged_terms fams))) /\
      (forall a b rel, listed uc a b rel = listed uc b a (opposite rel)).
  Proof.
    intros cs subs fams Hs Hf. pose proof (inv_calls R P offset_ok order cs) as I. set (l := calls cs) in *.
    exists (cell R P l fams). split; [apply unit_cell_ok; auto|]. split; [|split; [|split]].
    - unfold cell, with_hops. rewrite map_map. cbn [u_pos u_norb u_uid u_alias].
      eapply perm_trans; [apply Permutation_map; apply Permutation_sym; apply (frame_perm R P l)|].
      rewrite map_map. apply Permutation_map. apply Permutation_sym. exact Hs.
    - intros i j u v Hij Hu Hv. exact (cell_order R P l I fams i j u v Hij Hu Hv).
    - intros i u Hu. destruct (cell_nth R P l fams i u Hu) as (v & Ev & _ & _ & E & _ & Eh). rewrite Eh, E.
      pose proof (term_ids R P l I fams Hf) as TI. change (tagged_terms fams) with (fam_terms fams).
      assert (UA : forall x, In x (uids R P l) -> uid_at (cell R P l fams) (idx_of (uids R P l) x) = Some x).
      { intros x Hx. destruct (idx_of_cell R P l fams x Hx) as (w & Ew & Ex). unfold uid_at. rewrite Ew. cbn. congruence. }
      clear Eh Hu. revert TI. generalize (fam_terms fams) as L.
      induction L as [|ft L IH]; intros TI; [split; reflexivity|]. destruct (TI ft (or_introl eq_refl)) as [T1 T2].
      destruct IH as [IH1 IH2]; [intros; apply TI; right; auto|].
      cbn [flat_map]. rewrite !filter_app, !map_app, IH1, IH2. cbn [filter].
      rewrite (Nat.eqb_sym (t_from (snd ft))), (Nat.eqb_sym (t_to (snd ft))). unfold entry.
      destruct (u_uid v =? t_from (snd ft)), (u_uid v =? t_to (snd ft));
        cbn [app filter h_conj negb map h_rel h_to h_fam]; rewrite ?(UA _ T1), ?(UA _ T2); split; reflexivity.
    - intros a b rel. apply listed_sym. apply cell_uc_ok; auto.
  Qed.
End Facts.
