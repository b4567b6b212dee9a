(* C67: a lattice holds exactly the bonds and energies that were declared. *)
From Coq Require Import Permutation.
From Verif Require Import Base Rle Blocks Foundation Scalar Lattice LatticeSpec LatticeProofs RegistryProofs FoundationSpec Symmetry SymmetrySpec Hamiltonian HamiltonianSpec BulkSpec.

(** ** Specification: the meaning of a list of calls *)
Section Meaning.
  Variables (R : scalar) (P : Type).
  Notation lcall := (lcall R P).

  Definition new_name (c : lcall) : list name := match c with AddSublattice n _ _ => [n] | AddAlias n _ _ => [n] | _ => [] end.
  Definition sub_names (cs : list lcall) : list name := flat_map new_name cs.
  Fixpoint index_of (n : name) (l : list name) : option nat :=
    match l with [] => None | m :: l' => if name_eqb m n then Some 0 else option_map S (index_of n l') end.
  (** Sublattices are numbered in the order in which they are added. *)
  Definition uid_of (cs : list lcall) (n : name) : option nat := index_of n (sub_names cs).
  (** The energy registered under a name. *)
  Fixpoint energy_of (cs : list lcall) (n : name) : option (mat R) :=
    match cs with
    | [] => None
    | RegisterHopping m e :: cs' => if name_eqb m n then Some e else energy_of cs' n
    | _ :: cs' => energy_of cs' n
    end.
  (** The bond a call declares, and its energy. *)
  Definition bond_of (cs : list lcall) (c : lcall) : option (term * mat R) :=
    match c with
    | AddHopping rel a b f =>
      match uid_of cs a, uid_of cs b, energy_of cs f with Some u, Some v, Some e => Some (Term rel u v, e) | _, _, _ => None end
    | AddHoppingEnergy rel a b e =>
      match uid_of cs a, uid_of cs b with Some u, Some v => Some (Term rel u v, e) | _, _ => None end
    | _ => None
    end.
  Definition declares (c : lcall) : bool := match c with AddHopping _ _ _ _ | AddHoppingEnergy _ _ _ _ => true | _ => false end.
  (** Sum of the declared energies from orbital [i] of site [x] to orbital [j] of site [y]. *)
  Definition declared (nt : ntype R) (cs : list lcall) (x : idx3 * nat) (i : nat) (y : idx3 * nat) (j : nat) : R :=
    ksum (fun c => match bond_of cs c with Some (t, e) => if leads_to t x y then nt_cast nt (m_at e i j) else k0 | None => k0 end) cs.
  (** Names of the form the library makes up for unnamed energies are left to it. *)
  Definition plain_call (c : lcall) : Prop := match c with AddHopping _ _ _ (Anon _) => False | _ => True end.

  (** The calls of a history that returned. *)
  Fixpoint kept offset_ok order (cs : list lcall) (l : lattice R P) : list lcall :=
    match cs with
    | [] => []
    | c :: cs' => let r := call offset_ok order c l in if snd r then c :: kept offset_ok order cs' (fst r) else kept offset_ok order cs' (fst r)
    end.
  (** Number of orbitals of a sublattice. *)
  Definition orbital (l : lattice R P) (x : idx3 * nat) (i : nat) : Prop := exists s, In s (l_subs l) /\ sb_uid s = snd x /\ i < m_rows (sb_energy s).
End Meaning.
Arguments sub_names {R P}. Arguments uid_of {R P}. Arguments energy_of {R P}. Arguments bond_of {R P}. Arguments declares {R P}. Arguments declared {R P}.
Arguments plain_call {R P}. Arguments kept {R P}. Arguments orbital {R P}. Arguments new_name {R P}.

(** ** Proof *)
Section Proof.
  Variables (R : scalar) (P : Type) (offset_ok : P -> bool) (order : list (family R) -> list (family R)).
  Hypothesis order_perm : forall fs, Permutation (order fs) fs.
  Add Ring Rrg : (k_ring R).
  Notation lcall := (lcall R P).
  Notation lattice := (lattice R P).

  Lemma index_of_app : forall n l l' u, index_of n l = Some u -> index_of n (l ++ l') = Some u.
  Proof.
    intros n. induction l as [|m l IH]; intros l' u H; [discriminate|]. cbn [app index_of] in *. destruct (name_eqb m n); [exact H|].
    destruct (index_of n l) as [v|] eqn:E; [|discriminate]. rewrite (IH l' v eq_refl). exact H.
  Qed.
  Lemma index_of_nth : forall n l u, nth_error l u = Some n -> NoDup l -> index_of n l = Some u.
  Proof.
    intros n. induction l as [|m l IH]; intros u H ND; [destruct u; discriminate|]. inversion ND as [|? ? N1 N2]; subst. cbn [index_of].
    destruct u as [|u]; cbn in H.
    - injection H as ->. destruct (name_eqb_spec n n); congruence.
    - destruct (name_eqb_spec m n) as [->|_]; [exfalso; apply N1; eapply nth_error_In; exact H|]. rewrite (IH u H N2). reflexivity.
  Qed.
  Lemma energy_of_app : forall cs cs' n e, energy_of (R := R) (P := P) cs n = Some e -> energy_of (cs ++ cs') n = Some e.
  Proof.
    induction cs as [|c cs IH]; intros cs' n e H; [discriminate|]. cbn [app energy_of] in *. destruct c; auto. destruct (name_eqb n0 n); auto.
  Qed.
  Lemma energy_of_new : forall cs n e, (forall e', ~ In (RegisterHopping n e') cs) -> energy_of (R := R) (P := P) (cs ++ [RegisterHopping n e]) n = Some e.
  Proof.
    induction cs as [|c cs IH]; intros n e H.
    - cbn. destruct (name_eqb_spec n n); congruence.
    - cbn [app energy_of]. assert (H' : forall e', ~ In (RegisterHopping n e') cs) by (intros e' C; apply (H e'); right; exact C).
      destruct c; auto. destruct (name_eqb_spec n0 n) as [->|_]; auto. exfalso. apply (H e0). left. reflexivity.
  Qed.
  Lemma bond_of_app : forall cs c0 c b, bond_of (R := R) (P := P) cs c = Some b -> bond_of (cs ++ c0) c = Some b.
  Proof.
    intros cs c0 c b H. destruct c; cbn [bond_of] in *; try discriminate; unfold uid_of, sub_names in *; rewrite flat_map_app;
    destruct (index_of from _) as [u|] eqn:E1; try discriminate; destruct (index_of to _) as [v|] eqn:E2; try discriminate;
    rewrite (index_of_app _ _ _ _ E1), (index_of_app _ _ _ _ E2); [|exact H].
    destruct (energy_of cs fam) as [e|] eqn:E3; [|discriminate]. rewrite (energy_of_app _ _ _ _ E3). exact H.
  Qed.
  Lemma bond_of_declares : forall cs c b, bond_of (R := R) (P := P) cs c = Some b -> declares c = true.
  Proof. intros cs [] b H; try discriminate; reflexivity. Qed.

  Record told (cs : list lcall) (l : lattice) : Prop := {
    td_inv : lat_inv R P l;
    td_names : map sb_name (l_subs l) = sub_names cs;
    td_reg : forall n e, In (RegisterHopping n e) cs -> In n (map fm_name (l_fams l));
    td_fams : forall f, In f (l_fams l) -> (exists k, fm_name f = Anon k) \/ energy_of cs (fm_name f) = Some (fm_energy f);
    td_bonds : forall c, In c cs -> declares c = true -> exists b, bond_of cs c = Some b;
    td_sum : forall nt x i y j, orbital l x i -> orbital l y j -> hops_to nt (l_fams l) x i y j = declared nt cs x i y j
  }.

  Lemma told_uid : forall cs l s, told cs l -> In s (l_subs l) -> uid_of cs (sb_name s) = Some (sb_uid s).
  Proof.
    intros cs l s T H. destruct T as [I N _ _ _ _]. unfold uid_of. rewrite <- N. apply index_of_nth; [|apply (li_names _ _ _ I)].
    apply In_nth_error in H as (k & Hk). pose proof (li_uids _ _ _ I) as U.
    assert (E : nth_error (map sb_uid (l_subs l)) k = Some (sb_uid s)) by (rewrite nth_error_map, Hk; reflexivity).
    assert (L : k < length (l_subs l)) by (apply nth_error_Some; congruence).
    rewrite U in E. rewrite (nth_error_nth' _ 0) in E by (rewrite seq_length; exact L). rewrite seq_nth in E by exact L. injection E as E.
    rewrite <- E. cbn. rewrite nth_error_map, Hk. reflexivity.
  Qed.

  Lemma declared_app : forall nt cs c x i y j, (forall c', In c' cs -> declares c' = true -> exists b, bond_of cs c' = Some b) ->
    declared (R := R) (P := P) nt (cs ++ [c]) x i y j = kadd (declared nt cs x i y j)
      (match bond_of (cs ++ [c]) c with Some (t, e) => if leads_to t x y then nt_cast nt (m_at e i j) else k0 | None => k0 end).
  Proof.
    intros nt cs c x i y j HB. unfold declared. rewrite ksum_app. f_equal; [|cbn; ring].
    apply ksum_ext. intros c' Hc. destruct (declares c') eqn:D.
    - destruct (HB c' Hc D) as (b & E). rewrite E, (bond_of_app _ _ _ _ E). reflexivity.
    - destruct c'; try discriminate; reflexivity.
  Qed.
  Lemma told_bonds_app : forall cs c, (forall c', In c' cs -> declares c' = true -> exists b, bond_of (R := R) (P := P) cs c' = Some b) ->
    (declares c = true -> exists b, bond_of (cs ++ [c]) c = Some b) ->
    forall c', In c' (cs ++ [c]) -> declares c' = true -> exists b, bond_of (cs ++ [c]) c' = Some b.
  Proof.
    intros cs c HB HC c' Hin D. apply in_app_iff in Hin as [Hin|[<-|[]]]; [|auto]. destruct (HB c' Hin D) as (b & E). exists b. apply bond_of_app. exact E.
  Qed.

  Lemma hops_push : forall nt (fams : list (family R)) f t x i y j, NoDup (map fm_name fams) -> In f fams ->
    hops_to nt (map (push_term (fm_name f) t) fams) x i y j = kadd (hops_to nt fams x i y j) (if leads_to t x y then nt_cast nt (m_at (fm_energy f) i j) else k0).
  Proof.
    intros nt fams f t x i y j. unfold hops_to. induction fams as [|g fams IH]; intros ND HI; [destruct HI|]. cbn [map] in *. inversion ND as [|? ? N1 N2]; subst.
    rewrite !ksum_cons. destruct (name_eqb_spec (fm_name g) (fm_name f)) as [E|E].
    - assert (g = f) as -> by (destruct HI as [->|HI]; [reflexivity|exfalso; apply N1; rewrite E; apply in_map; exact HI]).
      rewrite push_terms_none by exact N1. unfold push_term. destruct (name_eqb_spec (fm_name f) (fm_name f)); [|congruence]. cbn [fm_terms fm_energy].
      rewrite ksum_app. cbn. ring.
    - destruct HI as [->|HI]; [congruence|]. rewrite IH by assumption. unfold push_term at 1 2. destruct (name_eqb_spec (fm_name g) (fm_name f)); [congruence|]. ring.
  Qed.

  (** One accepted hopping through a family of the lattice. *)
  Lemma hopping_told : forall cs l rel a b f l', lat_inv R P l -> add_hopping rel a b (fm_name f) l = (l', true) -> In f (l_fams l) ->
    (forall s, In s (l_subs l) -> uid_of cs (sb_name s) = Some (sb_uid s)) ->
    exists u v, uid_of (P := P) (R := R) cs a = Some u /\ uid_of cs b = Some v /\
      l' = Lat (l_subs l) (map (push_term (fm_name f) (Term rel u v)) (l_fams l)) (l_offset l) (l_min l) /\
      forall x y i j, orbital l x i -> orbital l y j -> leads_to (Term rel u v) x y = true -> i < m_rows (fm_energy f) /\ j < m_cols (fm_energy f).
  Proof.
    intros cs l rel a b f l' I H Hf HU. unfold add_hopping in H. destruct (name_eqb a b && eqb3 rel zero3); [discriminate|].
    destruct (find_sub l a) as [sa|] eqn:Ea; [|discriminate]. destruct (find_sub l b) as [sb|] eqn:Eb; [|discriminate].
    rewrite (find_fam_in R P l f I Hf) in H.
    destruct (_ || _) eqn:Ed; [discriminate|]. destruct (existsb _ _); [discriminate|]. injection H as <-.
    apply find_sub_some in Ea as (Ha & <-). apply find_sub_some in Eb as (Hb & <-). exists (sb_uid sa), (sb_uid sb).
    split; [apply HU; exact Ha|]. split; [apply HU; exact Hb|]. split; [reflexivity|].
    apply orb_false_iff in Ed as (Ed1 & Ed2). apply negb_false_iff, Nat.eqb_eq in Ed1. apply negb_false_iff, Nat.eqb_eq in Ed2.
    assert (UQ : forall s s', In s (l_subs l) -> In s' (l_subs l) -> sb_uid s = sb_uid s' -> s = s').
    { intros s s' Hs Hs' E. pose proof (li_uids _ _ _ I) as U. revert U Hs Hs'. generalize 0. generalize (l_subs l). clear - E. 
      induction l as [|z L IH]; intros k U Hs Hs'; [destruct Hs|]. cbn in U. injection U as U1 U2.
      assert (LB : forall w, In w L -> S k <= sb_uid w).
      { intros w Hw. assert (X : In (sb_uid w) (map sb_uid L)) by (apply in_map; exact Hw). rewrite U2 in X. apply in_seq in X. lia. }
      destruct Hs as [->|Hs], Hs' as [->|Hs']; auto; [specialize (LB _ Hs')|specialize (LB _ Hs)|eapply IH; eauto]; lia. }
    intros x y i j (s & S1 & S2 & S3) (s' & S1' & S2' & S3') L. unfold leads_to in L. cbn [t_from t_to] in L.
    rewrite !andb_true_iff, !Nat.eqb_eq in L. destruct L as ((L1 & L2) & _).
    assert (s = sa) by (apply UQ; auto; congruence). assert (s' = sb) by (apply UQ; auto; congruence). subst.
    destruct (li_sub _ _ _ I sb Hb) as (_ & (_ & Hsq & _)). lia.
  Qed.

  Lemma orbital_subs : forall (l l' : lattice) x i, l_subs l = l_subs l' -> orbital l x i -> orbital l' x i.
  Proof. intros l l' x i E (s & H). exists s. rewrite <- E. exact H. Qed.

  Lemma sub_step : forall cs l c s, told cs l -> lat_inv R P (Lat (l_subs l ++ [s]) (l_fams l) (l_offset l) (l_min l)) -> new_name c = [sb_name s] ->
    declares c = false -> (forall n e, c <> RegisterHopping n e) ->
    told (cs ++ [c]) (Lat (l_subs l ++ [s]) (l_fams l) (l_offset l) (l_min l)).
  Proof.
    intros cs l c s [I N Rg Fm B S] I' Hn Hd Hr. constructor; auto.
    - cbn [l_subs]. rewrite map_app, N. unfold sub_names. rewrite flat_map_app. cbn [flat_map map]. rewrite Hn. reflexivity.
    - cbn [l_fams]. intros n e Hin. apply in_app_iff in Hin as [Hin|[Hin|[]]]; [eauto|]. exfalso. apply (Hr n e). exact Hin.
    - cbn [l_fams]. intros f Hf. destruct (Fm f Hf) as [A|A]; [left; exact A|right]. apply energy_of_app. exact A.
    - apply told_bonds_app; auto. congruence.
    - intros nt x i y j Ox Oy. cbn [l_fams]. rewrite declared_app by assumption.
      replace (bond_of (cs ++ [c]) c) with (@None (term * mat R)) by (destruct c; try discriminate Hd; reflexivity).
      assert (DO : forall z k, orbital (Lat (l_subs l ++ [s]) (l_fams l) (l_offset l) (l_min l)) z k -> orbital l z k \/ snd z = sb_uid s).
      { intros z k (w & W1 & W2 & W3). cbn [l_subs] in W1. apply in_app_iff in W1 as [W1|[<-|[]]]; [left; exists w; auto|right; auto]. }
      assert (FR : forall w, In w (l_subs l) -> sb_uid w <> sb_uid s).
      { intros w Hw E. pose proof (li_uids _ _ _ I') as U. cbn [l_subs] in U. rewrite map_app in U. cbn [map] in U.
        assert (ND : NoDup (map sb_uid (l_subs l) ++ [sb_uid s])) by (rewrite U; apply seq_NoDup).
        apply NoDup_remove_2 in ND. rewrite app_nil_r in ND. apply ND. rewrite <- E. apply in_map. exact Hw. }
      assert (Z : forall z w, snd z = sb_uid s \/ snd w = sb_uid s -> forall fam t, In fam (l_fams l) -> In t (fm_terms fam) -> leads_to t z w = false).
      { intros z w HZ fam t Hfam Ht. destruct (li_terms _ _ _ I fam t Hfam Ht) as (a & b & Ha & Hb & Ea & Eb & _).
        destruct (leads_to t z w) eqn:L; [|reflexivity]. unfold leads_to in L. rewrite !andb_true_iff, !Nat.eqb_eq in L. destruct L as ((L1 & L2) & _).
        exfalso. destruct HZ as [HZ|HZ]; [apply (FR a Ha)|apply (FR b Hb)]; congruence. }
      assert (ZB : snd x = sb_uid s \/ snd y = sb_uid s -> hops_to nt (l_fams l) x i y j = k0 /\ declared nt cs x i y j = k0).
      { intros HZ. split.
        - unfold hops_to. apply ksum_0. intros fam Hfam. apply ksum_0. intros t Ht. rewrite (Z x y HZ fam t Hfam Ht). reflexivity.
        - unfold declared. apply ksum_0. intros c' Hc'. destruct (bond_of cs c') as [[t e]|] eqn:Eb; [|reflexivity].
          assert (IX : forall n u, uid_of cs n = Some u -> exists w, In w (l_subs l) /\ sb_uid w = u).
          { intros n u E. unfold uid_of in E. rewrite <- N in E.
            assert (L : u < length (l_subs l)).
            { clear - E. revert u E. generalize (l_subs l). induction l0 as [|z L IH]; intros u E; [discriminate|]. cbn in E. destruct (name_eqb _ _); [injection E as <-; cbn; lia|].
              destruct (index_of n _) as [v|] eqn:E'; [|discriminate]. injection E as <-. specialize (IH v eq_refl). cbn. lia. }
            assert (X : In u (map sb_uid (l_subs l))) by (rewrite (li_uids _ _ _ I); apply in_seq; lia).
            apply in_map_iff in X as (w & W1 & W2). exists w. auto. }
          assert (TT : (exists w, In w (l_subs l) /\ sb_uid w = t_from t) /\ (exists w, In w (l_subs l) /\ sb_uid w = t_to t)).
          { destruct c'; cbn [bond_of] in Eb; try discriminate; destruct (uid_of cs from) as [u|] eqn:E1; try discriminate; destruct (uid_of cs to) as [v|] eqn:E2; try discriminate;
            [destruct (energy_of cs fam); [|discriminate]|]; injection Eb as <- <-; cbn [t_from t_to]; split; eauto. }
          destruct TT as ((a & Ha & Ea) & (b & Hb & Ebb)). destruct (leads_to t x y) eqn:L; [|reflexivity]. unfold leads_to in L. rewrite !andb_true_iff, !Nat.eqb_eq in L. destruct L as ((L1 & L2) & _).
          exfalso. destruct HZ as [HZ|HZ]; [apply (FR a Ha)|apply (FR b Hb)]; congruence. }
      destruct (DO x i Ox) as [Ox'|Ex]; [destruct (DO y j Oy) as [Oy'|Ey]|].
      + rewrite (S nt x i y j Ox' Oy'). ring.
      + destruct (ZB (or_intror Ey)) as [-> ->]. ring.
      + destruct (ZB (or_introl Ex)) as [-> ->]. ring.
  Qed.

  (** A family with a new name and no terms changes nothing. *)
  Lemma hops_empty_fam : forall nt (fams : list (family R)) n e id x i y j, hops_to nt (fams ++ [Fam n e id []]) x i y j = hops_to nt fams x i y j.
  Proof. intros. unfold hops_to. rewrite ksum_app. cbn. ring. Qed.

  Lemma told_reject : forall cs l l', told cs l -> l_subs l' = l_subs l -> lat_inv R P l' ->
    (l_fams l' = l_fams l \/ exists k e, l_fams l' = l_fams l ++ [Fam (Anon k) e (length (l_fams l)) []]) -> told cs l'.
  Proof.
    intros cs l l' [I N Rg Fm B S] E I' [F|(k & e & F)].
    - constructor; auto; rewrite ?E, ?F; auto. intros nt x i y j Ox Oy. apply S; eapply orbital_subs; eauto.
    - constructor; auto; rewrite ?E, ?F; auto.
      + intros n e' H. rewrite map_app, in_app_iff. left. eauto.
      + intros f Hf. apply in_app_iff in Hf as [Hf|[<-|[]]]; [auto|]. left. exists k. reflexivity.
      + intros nt x i y j Ox Oy. rewrite hops_empty_fam. apply S; eapply orbital_subs; eauto.
  Qed.

  Lemma told_step : forall cs l c, told cs l -> (snd (call offset_ok order c l) = true -> plain_call c) ->
    let r := call offset_ok order c l in told (if snd r then cs ++ [c] else cs) (fst r).
  Proof.
    intros cs l c T PC r.
    assert (I' : lat_inv R P (fst r)) by (apply inv_call; apply (td_inv _ _ T)).
    assert (QUIET : forall l', l_subs l' = l_subs l -> l_fams l' = l_fams l -> lat_inv R P l' -> declares c = false -> new_name c = [] -> (forall n e, c <> RegisterHopping n e) -> told (cs ++ [c]) l').
    { intros l' E1 E2 I2 Hd Hn Hr. destruct T as [I N Rg Fm B S]. constructor; auto.
      - rewrite E1, N. unfold sub_names. rewrite flat_map_app. cbn [flat_map]. rewrite Hn. cbn. rewrite app_nil_r. reflexivity.
      - rewrite E2. intros n e Hin. apply in_app_iff in Hin as [Hin|[Hin|[]]]; [eauto|]. exfalso. apply (Hr n e). exact Hin.
      - rewrite E2. intros f Hf. destruct (Fm f Hf) as [A|A]; [left; exact A|right]. apply energy_of_app. exact A.
      - apply told_bonds_app; auto. congruence.
      - intros nt x i y j Ox Oy. rewrite E2, declared_app by assumption.
        replace (bond_of (cs ++ [c]) c) with (@None (term * mat R)) by (destruct c; try discriminate Hd; reflexivity).
        rewrite (S nt x i y j) by (eapply orbital_subs; eauto). ring. }
    assert (HOP : forall cs' l1 f rel a b l2 e, told cs' l1 -> In f (l_fams l1) -> add_hopping rel a b (fm_name f) l1 = (l2, true) -> lat_inv R P l2 ->
      (c = AddHopping rel a b (fm_name f) /\ energy_of cs' (fm_name f) = Some (fm_energy f) /\ e = fm_energy f \/ c = AddHoppingEnergy rel a b e /\ mat_eqb (fm_energy f) e = true) ->
      told (cs' ++ [c]) l2).
    { intros cs' l1 f rel a b l2 e T1 Hf EA I2 HC. destruct (hopping_told cs' l1 rel a b f l2 (td_inv _ _ T1) EA Hf (fun s => told_uid cs' l1 s T1)) as (u & v & Hu & Hv & -> & HR).
      assert (EB : bond_of (cs' ++ [c]) c = Some (Term rel u v, e)).
      { apply bond_of_app. destruct HC as [(-> & He & ->)|(-> & He)]; cbn [bond_of]; rewrite Hu, Hv, ?He; reflexivity. }
      assert (Hn : new_name c = []) by (destruct HC as [(-> & _)|(-> & _)]; reflexivity).
      destruct T1 as [I N Rg Fm B S]. constructor; auto.
      - cbn [l_subs]. rewrite N. unfold sub_names. rewrite flat_map_app. cbn [flat_map]. rewrite Hn. cbn. rewrite app_nil_r. reflexivity.
      - cbn [l_fams]. rewrite push_term_names. intros n e' Hin. apply in_app_iff in Hin as [Hin|[Hin|[]]]; [eauto|].
        exfalso. destruct HC as [(-> & _)|(-> & _)]; discriminate.
      - cbn [l_fams]. intros g Hg. apply in_map_iff in Hg as (g0 & <- & Hg). rewrite push_term_energy.
        replace (fm_name (push_term (fm_name f) (Term rel u v) g0)) with (fm_name g0) by (unfold push_term; destruct (name_eqb _ _); reflexivity).
        destruct (Fm g0 Hg) as [A|A]; [left; exact A|right]. apply energy_of_app. exact A.
      - apply told_bonds_app; eauto.
      - intros nt x i y j Ox Oy. cbn [l_fams]. rewrite (hops_push nt (l_fams l1) f) by (try assumption; apply (li_fnames _ _ _ I)).
        assert (Ox' : orbital l1 x i) by (eapply orbital_subs; [|exact Ox]; reflexivity). assert (Oy' : orbital l1 y j) by (eapply orbital_subs; [|exact Oy]; reflexivity).
        rewrite declared_app by assumption. rewrite EB. rewrite (S nt x i y j Ox' Oy'). f_equal. destruct (leads_to (Term rel u v) x y) eqn:L; [|reflexivity].
        destruct HC as [(_ & _ & ->)|(_ & He)]; [reflexivity|]. destruct (HR x y i j Ox' Oy' L) as (Hi & Hj).
        apply mat_eqb_spec in He as (_ & _ & He). rewrite He by assumption. reflexivity. }
    destruct c as [n p e|n o p|n e|rel a b fam|rel a b e|p|k]; cbn [call] in r; subst r.
    - unfold add_sublattice in *. destruct (onsite_ok e); cbn [negb]; [|exact T]. destruct (make_uid l n) as [u|]; [|exact T].
      cbn [ok snd fst] in *. apply sub_step; auto. intros; discriminate.
    - unfold add_alias in *. destruct (find_sub l o) as [so|]; [|exact T]. destruct (make_uid l n) as [u|]; [|exact T].
      cbn [ok snd fst] in *. apply sub_step; auto. intros; discriminate.
    - unfold register_hopping_energy in *. destruct (name_eqb_spec n Blank); [exact T|]. destruct (hopping_ok e) eqn:Hok; cbn [negb]; [|exact T].
      destruct (find_fam l n) as [f0|] eqn:Ef; [exact T|]. cbn [ok snd fst] in *.
      assert (Hnew : ~ In n (map fm_name (l_fams l))) by (apply find_fam_none; exact Ef).
      destruct T as [I N Rg Fm B S]. constructor.
      + apply I'.
      + cbn [l_subs]. rewrite N. unfold sub_names. rewrite flat_map_app. cbn. rewrite app_nil_r. reflexivity.
      + cbn [l_fams]. intros n' e' Hin. rewrite map_app, in_app_iff. apply in_app_iff in Hin as [Hin|[Hin|[]]]; [left; eauto|]. injection Hin as <- <-. right. left. reflexivity.
      + cbn [l_fams]. intros f Hf. apply in_app_iff in Hf as [Hf|[<-|[]]].
        * destruct (Fm f Hf) as [A|A]; [left; exact A|right]. apply energy_of_app. exact A.
        * right. cbn [fm_name fm_energy]. apply energy_of_new. intros e' Hin. apply Hnew. eauto.
      + apply told_bonds_app; auto. discriminate.
      + intros nt x i y j Ox Oy. cbn [l_fams]. rewrite hops_empty_fam, declared_app by assumption. cbn [bond_of]. rewrite (S nt x i y j) by (eapply orbital_subs; [|eassumption]; reflexivity). ring.
    - destruct (add_hopping rel a b fam l) as [l' ok'] eqn:EA. cbn [fst snd] in *. destruct ok'.
      + assert (HF : exists f, In f (l_fams l) /\ fm_name f = fam).
        { assert (X : snd (add_hopping rel a b fam l) = true) by (rewrite EA; reflexivity). apply add_hopping_iff in X as (fm & X1 & X2 & _); [|apply (td_inv _ _ T)]. eauto. }
        destruct HF as (f & Hf & <-). specialize (PC ltac:(cbn [call]; rewrite EA; reflexivity)). cbn [plain_call] in PC.
        apply (HOP cs l f rel a b l' (fm_energy f)); auto. left. split; [reflexivity|]. split; [|reflexivity].
        destruct (td_fams _ _ T f Hf) as [(k & Ek)|E]; [|exact E]. rewrite Ek in PC. destruct PC.
      + unfold add_hopping in EA. destruct (name_eqb a b && eqb3 rel zero3); [injection EA as <-; exact T|].
        destruct (find_sub l a); [|injection EA as <-; exact T]. destruct (find_sub l b); [|injection EA as <-; exact T]. destruct (find_fam l fam); [|injection EA as <-; exact T].
        destruct (_ || _); [injection EA as <-; exact T|]. destruct (existsb _ _); [injection EA as <-; exact T|]. discriminate EA.
    - assert (RJ : forall (l1 : lattice) f l2, add_hopping rel a b f l1 = (l2, false) -> l2 = l1).
      { intros l1 f l2 EA. unfold add_hopping in EA. destruct (name_eqb a b && eqb3 rel zero3); [injection EA as <-; reflexivity|].
        destruct (find_sub l1 a); [|injection EA as <-; reflexivity]. destruct (find_sub l1 b); [|injection EA as <-; reflexivity]. destruct (find_fam l1 f); [|injection EA as <-; reflexivity].
        destruct (_ || _); [injection EA as <-; reflexivity|]. destruct (existsb _ _); [injection EA as <-; reflexivity|]. discriminate EA. }
      unfold add_hopping_energy in *. destruct (find _ (order (l_fams l))) as [f|] eqn:Ef.
      + apply find_some in Ef as (Hf & Ee). assert (Hin : In f (l_fams l)) by (eapply Permutation_in; [apply order_perm|exact Hf]).
        destruct (add_hopping rel a b (fm_name f) l) as [l' ok'] eqn:EA. cbn [fst snd] in *. destruct ok'.
        * apply (HOP cs l f rel a b l' e); auto.
        * rewrite (RJ _ _ _ EA). exact T.
      + unfold register_hopping_energy in *. cbn [name_eqb] in *. destruct (hopping_ok e) eqn:Hok; cbn [negb] in *; [|exact T].
        destruct (find_fam l (Anon (length (l_fams l)))) as [f0|] eqn:Eff; cbn [ok throw] in *; [exact T|].
        set (g := Fam (Anon (length (l_fams l))) e (length (l_fams l)) []) in *. set (l1 := Lat (l_subs l) (l_fams l ++ [g]) (l_offset l) (l_min l)) in *.
        assert (I1 : lat_inv R P l1).
        { apply (inv_register R P l (Anon (length (l_fams l))) e l1 true (td_inv _ _ T)). unfold register_hopping_energy. cbn [name_eqb]. rewrite Hok, Eff. reflexivity. }
        assert (T1 : told cs l1) by (apply (told_reject cs l l1 T); [reflexivity|exact I1|right; exists (length (l_fams l)), e; reflexivity]).
        destruct (add_hopping rel a b (Anon (length (l_fams l))) l1) as [l' ok'] eqn:EA. cbn [fst snd] in *. destruct ok'.
        * apply (HOP cs l1 g rel a b l' e); auto; [cbn [l_fams l1]; apply in_app_iff; right; left; reflexivity|].
          right. split; [reflexivity|]. cbn [fm_energy g]. apply mat_eqb_spec. auto.
        * rewrite (RJ _ _ _ EA). exact T1.
    - unfold set_offset in *. destruct (offset_ok p); cbn [negb ok throw fst snd] in *; [|exact T]. apply QUIET; auto; intros; discriminate.
    - unfold set_min_neighbors in *. cbn [ok fst snd] in *. apply QUIET; auto; intros; discriminate.
  Qed.

  Lemma told_calls : forall cs l pre, told pre l -> (forall c, In c (kept offset_ok order cs l) -> plain_call c) ->
    told (pre ++ kept offset_ok order cs l) (fold_left (fun l c => fst (call offset_ok order c l)) cs l).
  Proof.
    induction cs as [|c cs IH]; intros l pre T HP; [cbn; rewrite app_nil_r; exact T|]. cbn [fold_left kept] in *.
    pose proof (told_step pre l c T) as ST. cbv zeta in *. destruct (snd (call offset_ok order c l)) eqn:E.
    - specialize (ST (fun _ => HP c (or_introl eq_refl))). specialize (IH _ _ ST). rewrite <- app_assoc in IH. apply IH. intros c' Hc. apply HP. right. exact Hc.
    - specialize (ST ltac:(discriminate)). apply (IH _ _ ST HP).
  Qed.
  Lemma told_new : told [] new_lattice.
  Proof. constructor; cbn; try (intros; contradiction); auto. apply inv_new. Qed.
End Proof.

(* ------------------------------------------------------------------ C67 *)
(** After any history of calls, the rejected ones caught, the hopping element between any two
    orbitals is the sum of the energies of the accepted calls, each taken once. *)
Theorem C67 : forall (R : scalar) (P : Type) offset_ok order (cs : list (lcall R P)), (forall fs, Permutation (order fs) fs) ->
  let l := calls offset_ok order cs in let ks := kept offset_ok order cs new_lattice in (forall c, In c ks -> plain_call c) ->
  map sb_name (l_subs l) = sub_names ks /\
  (forall s, In s (l_subs l) -> uid_of ks (sb_name s) = Some (sb_uid s)) /\
  (forall c, In c ks -> declares c = true -> exists t e, bond_of ks c = Some (t, e)) /\
  forall nt x i y j, orbital l x i -> orbital l y j ->
    hops_to nt (l_fams l) x i y j = declared nt ks x i y j /\
    bulk nt (l_fams l) x i y j = kadd (declared nt ks x i y j) (nt_conj nt (declared nt ks y j x i)).
Proof.
  intros R P oo order cs HO l ks HP. pose proof (told_calls R P oo order HO cs new_lattice [] (told_new R P) HP) as T. cbn [app] in T. fold ks in T.
  change (fold_left _ cs new_lattice) with l in T. split; [apply (td_names _ _ _ _ T)|]. split; [intros s; apply (told_uid _ _ _ _ s T)|].
  split. { intros c Hc D. destruct (td_bonds _ _ _ _ T c Hc D) as ([t e] & E). eauto. }
  intros nt x i y j Ox Oy. split; [apply (td_sum _ _ _ _ T); assumption|]. unfold bulk. rewrite !(td_sum _ _ _ _ T) by assumption. reflexivity.
Qed.
Print Assumptions C67.

(** An energy given twice, once by name; a bond given again in the other direction is refused. *)
Definition C67_calls : list (lcall GI nat) :=
  let e (x : GI) := Mat 1 1 (fun _ _ => x) in
  [AddSublattice (Nm 0) 0 (e (1, 0)%Z); AddAlias (Nm 1) (Nm 0) 1; RegisterHopping (Nm 5) (e (2, 1)%Z);
   AddHopping zero3 (Nm 0) (Nm 1) (Nm 5); AddHoppingEnergy (I3 1 0 0) (Nm 0) (Nm 1) (e (2, 1)%Z);
   AddHopping zero3 (Nm 1) (Nm 0) (Nm 5); AddHoppingEnergy (I3 1 0 0) (Nm 1) (Nm 0) (e (3, 0)%Z)].
Example C67_example : let l := calls (fun _ => true) (fun x => x) C67_calls in let ks := kept (fun _ => true) (fun x => x) C67_calls new_lattice in
  length (l_fams l) = 2 /\ length ks = 6 /\ declared complex_type ks (zero3, 0) 0 (I3 1 0 0, 1) 0 = (2, 1)%Z /\
  declared complex_type ks (zero3, 1) 0 (I3 1 0 0, 0) 0 = (3, 0)%Z /\ declared complex_type ks (zero3, 1) 0 (zero3, 0) 0 = (0, 0)%Z /\
  bulk complex_type (l_fams l) (I3 1 0 0, 1) 0 (zero3, 0) 0 = (2, -1)%Z /\ orbital l (zero3, 1) 0.
Proof. cbv zeta. repeat split; try (vm_compute; reflexivity). eexists. split; [right; left; reflexivity|]. split; [reflexivity|]. cbn. lia. Qed.
