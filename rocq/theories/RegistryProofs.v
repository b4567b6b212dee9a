(* Registries of families and the acceptance of configuration calls (C48). *)
From Verif Require Import Base Scalar Foundation Lattice LatticeSpec LatticeProofs LatticeFacts SystemBuild Registry ModelState ModelProofs.
From Coq Require Import Permutation.

Section Energies.
  Variable R : scalar.

  Lemma is_upper_spec : forall e : mat R, is_upper e = true <->
    forall i j, i < m_rows e -> j < m_cols e -> j < i -> m_at e i j = k0.
  Proof.
    intros e. unfold is_upper. rewrite forallb_forall. split.
    - intros H i j Hi Hj Hij. specialize (H i). rewrite in_seq in H. specialize (H ltac:(lia)).
      rewrite forallb_forall in H. specialize (H j). rewrite in_seq in H. specialize (H ltac:(lia)).
      apply orb_prop in H as [H|H]; [apply negb_true_iff, Nat.ltb_ge in H; lia|]. now apply (keqb_eq R).
    - intros H i Hi. apply in_seq in Hi. apply forallb_forall. intros j Hj. apply in_seq in Hj.
      destruct (Nat.ltb_spec j i); [|reflexivity]. cbn. apply (keqb_eq R), H; lia.
  Qed.
  Lemma diag_real_spec : forall e : mat R, diag_real e = true <-> forall i, i < m_rows e -> m_at e i i = kconj (m_at e i i).
  Proof.
    intros e. unfold diag_real. rewrite forallb_forall. split.
    - intros H i Hi. apply (keqb_eq R), H, in_seq. lia.
    - intros H i Hi. apply in_seq in Hi. apply (keqb_eq R), H. lia.
  Qed.
  Lemma mat_eqb_at : forall a b : mat R, mat_eqb a b = true <->
    m_rows a = m_rows b /\ m_cols a = m_cols b /\ forall i j, i < m_rows a -> j < m_cols a -> m_at a i j = m_at b i j.
  Proof.
    intros a b. unfold mat_eqb. rewrite !andb_true_iff, !Nat.eqb_eq, forallb_forall. split.
    - intros ((H1 & H2) & H). repeat split; auto. intros i j Hi Hj. specialize (H i). rewrite in_seq, forallb_forall in H.
      apply (keqb_eq R), (H ltac:(lia)), in_seq. lia.
    - intros (H1 & H2 & H). repeat split; auto. intros i Hi. apply in_seq in Hi. apply forallb_forall. intros j Hj. apply in_seq in Hj.
      apply (keqb_eq R), H; lia.
  Qed.
  Lemma onsite_ok_spec : forall e : mat R, onsite_ok e = true <->
    m_rows e = m_cols e /\ m_rows e <> 0 /\ (forall i, i < m_rows e -> m_at e i i = kconj (m_at e i i)) /\
    ((forall i j, j < i -> i < m_rows e -> m_at e i j = k0) \/
     (forall i j, i < m_rows e -> j < m_rows e -> m_at e i j = kconj (m_at e j i))).
  Proof.
    intros e. unfold onsite_ok. rewrite !andb_true_iff, orb_true_iff, Nat.eqb_eq, negb_true_iff, Nat.eqb_neq, diag_real_spec, is_upper_spec, mat_eqb_at.
    cbn [adjoint m_rows m_cols m_at]. split.
    - intros (((H1 & H2) & H3) & H4). repeat split; auto. destruct H4 as [H4|(_ & _ & H4)].
      + left. intros. apply H4; lia.
      + right. intros. apply H4; lia.
    - intros (H1 & H2 & H3 & H4). repeat split; auto. destruct H4 as [H4|H4].
      + left. intros. apply H4; lia.
      + right. repeat split; auto; try lia. intros. apply H4; lia.
  Qed.
  Lemma hopping_ok_spec : forall e : mat R, hopping_ok e = true <-> m_rows e <> 0 /\ m_cols e <> 0.
  Proof.
    intros e. unfold hopping_ok. rewrite negb_true_iff, orb_false_iff, !Nat.eqb_neq. tauto.
  Qed.

  Lemma register_spec : forall ok n (e : mat R) reg,
    register_family ok n e reg = (match register_family ok n e reg with Ok _ => Ok (reg ++ [(n, e)]) | _ => Throw end) /\
    ((exists reg', register_family ok n e reg = Ok reg') <-> n <> Blank /\ ok e = true /\ ~ In n (map fst reg)).
  Proof.
    intros ok n e reg. unfold register_family. destruct (name_eqb_spec n Blank) as [->|Hn].
    - split; [reflexivity|]. split; [intros (? & ?); discriminate|intros (H & _); congruence].
    - destruct (ok e) eqn:Eo; cbn [negb].
      + destruct (existsb _ reg) eqn:E.
        * split; [reflexivity|]. split; [intros (? & ?); discriminate|]. intros (_ & _ & H). exfalso. apply H.
          apply existsb_exists in E as (x & Hx & Ex). destruct (name_eqb_spec (fst x) n); [|discriminate]. subst n. now apply in_map.
        * split; [reflexivity|]. split; [|eauto]. intros _. repeat split; auto. intros H. apply in_map_iff in H as (x & Hx & Hin).
          assert (existsb (fun x => name_eqb (fst x) n) reg = true); [|congruence].
          apply existsb_exists. exists x. split; auto. destruct (name_eqb_spec (fst x) n); congruence.
      + split; [reflexivity|]. split; [intros (? & ?); discriminate|intros (_ & H & _); discriminate].
  Qed.

  (* lookups *)
  Lemma reg_id_from_spec : forall (reg : registry R) k n i, NoDup (map fst reg) ->
    reg_id_from k reg n = Ok i <-> k <= i /\ nth_error (map fst reg) (i - k) = Some n.
  Proof.
    induction reg as [|x t IH]; intros k n i Hd; cbn [reg_id_from map].
    - split; [discriminate|]. intros (_ & H). destruct (i - k); discriminate.
    - inversion Hd as [|? ? Hx Ht]; subst. destruct (name_eqb_spec (fst x) n) as [E|E].
      + split.
        * intros [= <-]. split; [lia|]. rewrite Nat.sub_diag. cbn. congruence.
        * intros (Hk & H). destruct (i - k) eqn:Ed; [f_equal; lia|]. cbn in H. exfalso. apply Hx. rewrite E. eapply nth_error_In; eauto.
      + rewrite IH by auto. split.
        * intros (Hk & H). split; [lia|]. replace (i - k) with (S (i - S k)) by lia. exact H.
        * intros (Hk & H). destruct (i - k) eqn:Ed; [cbn in H; congruence|]. split; [lia|]. replace (i - S k) with n0 by lia. exact H.
  Qed.
  Lemma reg_id_throw : forall (reg : registry R) k n, reg_id_from k reg n = Throw <-> ~ In n (map fst reg).
  Proof.
    induction reg as [|x t IH]; intros k n; cbn [reg_id_from map In].
    - tauto.
    - destruct (name_eqb_spec (fst x) n) as [E|E].
      + split; [discriminate|]. intros H. exfalso. auto.
      + rewrite IH. tauto.
  Qed.
  Lemma name_map_in : forall (reg : registry R) k m n, NoDup (map fst reg) -> (forall x, In x (map fst reg) -> ~ In x (map fst m)) ->
    map_find (name_map_from k reg m) n =
      match map_find m n with
      | Some i => Some i
      | None => match reg_id_from k reg n with Ok i => Some i | _ => None end
      end.
  Proof.
    induction reg as [|x t IH]; intros k m n Hd Hm; cbn [name_map_from reg_id_from].
    - destruct (map_find m n); reflexivity.
    - inversion Hd as [|? ? Hx Ht]; subst. rewrite IH; [|auto|].
      + unfold map_find at 1. cbn [find fst]. destruct (name_eqb_spec (fst x) n) as [E|E].
        * cbn. destruct (map_find m n) eqn:Em; [|reflexivity]. exfalso. unfold map_find in Em.
          destruct (find _ m) as [y|] eqn:Ef; [|discriminate]. apply find_some in Ef as (Hy & Ey). destruct (name_eqb_spec (fst y) n); [|discriminate].
          apply (Hm (fst x)); [now left|]. rewrite E. replace n with (fst y) by auto. now apply in_map.
        * reflexivity.
      + intros y Hy. cbn [map fst]. intros [Ey|Hin]; [subst; auto|]. apply (Hm y); [now right|auto].
  Qed.
End Energies.

Section Config.
  Variables (R : scalar) (P Shp Sy Fn : Type).
  Variables (padd : P -> P -> P) (peqb : P -> P -> bool) (offset_ok : P -> bool).
  Notation cfg := (config R P Shp Sy Fn).

  Lemma primitive_ok_spec : forall ndim size, primitive_ok ndim size = true <->
    (ndim <= 0 -> ix size = 1%Z) /\ (ndim <= 1 -> iy size = 1%Z) /\ (ndim <= 2 -> iz size = 1%Z).
  Proof.
    intros ndim [x y z]. unfold primitive_ok. cbn [ix iy iz]. rewrite forallb_forall.
    destruct ndim as [|[|[|n]]]; cbn [skipn]; (split; intros H).
    - repeat split; intros _; apply Z.eqb_eq, H; cbn; auto.
    - destruct H as (H1 & H2 & H3). intros w [<-|[<-|[<-|[]]]]; apply Z.eqb_eq; auto with arith.
    - repeat split; intros; try lia; apply Z.eqb_eq, H; cbn; auto.
    - destruct H as (H1 & H2 & H3). intros w [<-|[<-|[]]]; apply Z.eqb_eq; auto with arith.
    - repeat split; intros; try lia; apply Z.eqb_eq, H; cbn; auto.
    - destruct H as (H1 & H2 & H3). intros w [<-|[]]; apply Z.eqb_eq; auto with arith.
    - repeat split; intros; lia.
    - intros w Hw. rewrite skipn_nil in Hw. destruct Hw.
  Qed.

  (** One call changes a registry only by appending the family of an accepted generator. *)
  Lemma configure_registries : forall (m : mcall R P Shp Sy Fn) (c : cfg),
    let c' := fst (fst (configure padd peqb offset_ok m c)) in
    c_sites c' = c_sites c ++ match m with AddSiteGen n e _ => if snd (configure padd peqb offset_ok m c) then [(n, e)] else [] | _ => [] end /\
    c_hops c' = c_hops c ++ match m with AddHopGen n e _ => if snd (configure padd peqb offset_ok m c) then [(n, e)] else [] | _ => [] end.
  Proof.
    intros m c. cbv zeta.
    destruct m; cbn [configure];
      try (repeat match goal with |- context [if ?b then _ else _] => destruct b end; cbn; rewrite !app_nil_r; split; reflexivity).
    - destruct (register_spec R onsite_ok n e (c_sites c)) as (Er & _). destruct (register_family onsite_ok n e (c_sites c)) as [reg| |]; cbn; rewrite !app_nil_r; split; try reflexivity.
      now injection Er.
    - destruct (register_spec R hopping_ok n e (c_hops c)) as (Er & _). destruct (register_family hopping_ok n e (c_hops c)) as [reg| |]; cbn; rewrite !app_nil_r; split; try reflexivity.
      now injection Er.
  Qed.

  Definition sound_names (reg : list (name * mat R)) : Prop := NoDup (map fst reg) /\ ~ In Blank (map fst reg).
  Lemma register_sound : forall ok n (e : mat R) reg reg', register_family ok n e reg = Ok reg' -> sound_names reg -> sound_names reg'.
  Proof.
    intros ok n e reg reg' H (Hd & Hb). destruct (register_spec R ok n e reg) as (Er & Hiff). destruct (proj1 Hiff (ex_intro _ _ H)) as (Hn & _ & Hin).
    rewrite H in Er. injection Er as ->. unfold sound_names. rewrite map_app. cbn [map fst]. split.
    - apply NoDup_app_intro; auto; [repeat constructor; auto|]. intros x Hx [<-|[]]. auto.
    - rewrite in_app_iff. cbn. intros [?|[?|[]]]; auto.
  Qed.
  Lemma configure_sound : forall (m : mcall R P Shp Sy Fn) (c : cfg), sound_names (c_sites c) -> sound_names (c_hops c) ->
    let c' := fst (fst (configure padd peqb offset_ok m c)) in sound_names (c_sites c') /\ sound_names (c_hops c').
  Proof.
    intros m c Hs Hh. cbv zeta. destruct m; cbn [configure];
      try (repeat match goal with |- context [if ?b then _ else _] => destruct b end; cbn; auto; fail).
    - destruct (register_family onsite_ok n e (c_sites c)) as [reg| |] eqn:E; cbn; auto. split; auto. eapply register_sound; eauto.
    - destruct (register_family hopping_ok n e (c_hops c)) as [reg| |] eqn:E; cbn; auto. split; auto. eapply register_sound; eauto.
  Qed.
End Config.

Section LatticeCalls.
  Variables (R : scalar) (P : Type) (offset_ok : P -> bool) (order : list (family R) -> list (family R)).
  Hypothesis order_perm : forall fs, Permutation (order fs) fs.
  Notation lattice := (lattice R P).

  Definition joinable (l : lattice) (rel : idx3) (a b : name) (rows cols : nat) : Prop :=
    exists sa sb, In sa (l_subs l) /\ In sb (l_subs l) /\ sb_name sa = a /\ sb_name sb = b /\
      ~ (a = b /\ rel = zero3) /\ m_rows (sb_energy sa) = rows /\ m_rows (sb_energy sb) = cols /\
      (forall t, In t (all_terms l) -> ~ same_bond (Term rel (sb_uid sa) (sb_uid sb)) t).

  Lemma find_sub_in : forall l s, lat_inv R P l -> In s (l_subs l) -> find_sub l (sb_name s) = Some s.
  Proof.
    intros l s I H. unfold find_sub. destruct (find _ (l_subs l)) as [x|] eqn:E.
    - apply find_some in E as (Hx & Ex). destruct (name_eqb_spec (sb_name x) (sb_name s)); [|discriminate]. f_equal.
      pose proof (li_names _ _ _ I) as Hd. revert Hd Hx H e. generalize (l_subs l). clear. intros L.
      induction L as [|y L IH]; cbn; [tauto|]. intros Hd [->|Hx] [->|Hs] E; auto; inversion Hd as [|? ? Hn Hd']; subst; auto.
      + exfalso. apply Hn. rewrite E. now apply in_map.
      + exfalso. apply Hn. rewrite <- E. now apply in_map.
    - pose proof (find_none _ _ E s H) as X. cbn in X. destruct (name_eqb_spec (sb_name s) (sb_name s)); congruence.
  Qed.
  Lemma find_fam_in : forall l f, lat_inv R P l -> In f (l_fams l) -> find_fam l (fm_name f) = Some f.
  Proof.
    intros l s I H. unfold find_fam. destruct (find _ (l_fams l)) as [x|] eqn:E.
    - apply find_some in E as (Hx & Ex). destruct (name_eqb_spec (fm_name x) (fm_name s)); [|discriminate]. f_equal.
      pose proof (li_fnames _ _ _ I) as Hd. revert Hd Hx H e. generalize (l_fams l). clear. intros L.
      induction L as [|y L IH]; cbn; [tauto|]. intros Hd [->|Hx] [->|Hs] E; auto; inversion Hd as [|? ? Hn Hd']; subst; auto.
      + exfalso. apply Hn. rewrite E. now apply in_map.
      + exfalso. apply Hn. rewrite <- E. now apply in_map.
    - pose proof (find_none _ _ E s H) as X. cbn in X. destruct (name_eqb_spec (fm_name s) (fm_name s)); congruence.
  Qed.

  Lemma make_uid_iff : forall (l : lattice) n, (exists uid, make_uid l n = Some uid) <-> n <> Blank /\ ~ In n (map sb_name (l_subs l)).
  Proof.
    intros l n. split.
    - intros (uid & H). apply make_uid_some in H as (H1 & H2 & _). auto.
    - intros (H1 & H2). unfold make_uid. destruct (name_eqb_spec n Blank); [congruence|].
      destruct (find_sub l n) as [s|] eqn:E; [|eauto]. apply find_sub_some in E as (Hs & <-). exfalso. apply H2. now apply in_map.
  Qed.

  Lemma add_hopping_iff : forall l rel a b f, lat_inv R P l ->
    snd (add_hopping rel a b f l) = true <->
    exists fm, In fm (l_fams l) /\ fm_name fm = f /\ joinable l rel a b (m_rows (fm_energy fm)) (m_cols (fm_energy fm)).
  Proof.
    intros l rel a b f I. unfold add_hopping. split.
    - destruct (name_eqb a b && eqb3 rel zero3) eqn:Es; [discriminate|].
      destruct (find_sub l a) as [sa|] eqn:Ea; [|discriminate]. destruct (find_sub l b) as [sb|] eqn:Eb; [|discriminate].
      destruct (find_fam l f) as [fm|] eqn:Ef; [|discriminate].
      destruct (_ || _) eqn:Ed; [discriminate|]. destruct (existsb _ _) eqn:Ex; [discriminate|]. intros _.
      apply find_sub_some in Ea as (Ha & <-). apply find_sub_some in Eb as (Hb & <-). apply find_fam_some in Ef as (Hf & <-).
      exists fm. split; [auto|]. split; [auto|]. exists sa, sb. apply orb_false_iff in Ed as (Ed1 & Ed2).
      apply negb_false_iff, Nat.eqb_eq in Ed1. apply negb_false_iff, Nat.eqb_eq in Ed2.
      destruct (li_sub _ _ _ I sb Hb) as (_ & (_ & Hsq & _)).
      repeat split; auto; try lia.
      + intros (E1 & ->). destruct (name_eqb_spec (sb_name sa) (sb_name sb)); [|congruence]. destruct (eqb3_spec zero3 zero3); [discriminate|congruence].
      + intros t Ht Hbad. assert (X : existsb (term_eqb (Term rel (sb_uid sa) (sb_uid sb))) (all_terms l) = true); [|congruence].
        apply existsb_exists. exists t. split; auto. destruct (term_eqb_spec (Term rel (sb_uid sa) (sb_uid sb)) t); auto.
    - intros (fm & Hf & <- & sa & sb & Ha & Hb & <- & <- & Hself & Hr & Hc & Hnew).
      rewrite (find_sub_in l sa I Ha), (find_sub_in l sb I Hb), (find_fam_in l fm I Hf).
      destruct (name_eqb (sb_name sa) (sb_name sb) && eqb3 rel zero3) eqn:Es.
      { exfalso. apply andb_true_iff in Es as (E1 & E2). apply Hself. split.
        - destruct (name_eqb_spec (sb_name sa) (sb_name sb)); congruence.
        - destruct (eqb3_spec rel zero3); congruence. }
      destruct (li_sub _ _ _ I sb Hb) as (_ & (_ & Hsq & _)).
      rewrite Hr, Nat.eqb_refl. rewrite Hsq, Hc, Nat.eqb_refl. cbn [negb orb].
      destruct (existsb _ _) eqn:Ex; [|reflexivity]. exfalso. apply existsb_exists in Ex as (t & Ht & Et).
      destruct (term_eqb_spec (Term rel (sb_uid sa) (sb_uid sb)) t); [|discriminate]. apply (Hnew t Ht); auto.
  Qed.

  Lemma register_hopping_iff : forall l n (e : mat R), snd (register_hopping_energy n e l) = true <->
    n <> Blank /\ (m_rows e <> 0 /\ m_cols e <> 0) /\ ~ In n (map fm_name (@l_fams R P l)).
  Proof.
    intros l n e. rewrite <- hopping_ok_spec. unfold register_hopping_energy. destruct (name_eqb_spec n Blank); [split; [discriminate|intros (H & _); congruence]|].
    destruct (hopping_ok e) eqn:Eh; cbn [negb]; [|split; [discriminate|intros (_ & H & _); discriminate]].
    destruct (find_fam l n) as [f|] eqn:Ef.
    - split; [discriminate|]. intros (_ & _ & H). exfalso. apply find_fam_some in Ef as (Hf & <-). apply H. now apply in_map.
    - split; [|reflexivity]. intros _. repeat split; auto. now apply find_fam_none.
  Qed.

  Lemma add_hopping_energy_iff : forall l rel a b e, lat_inv R P l ->
    snd (add_hopping_energy order rel a b e l) = true <->
    joinable l rel a b (m_rows e) (m_cols e) /\
    ((exists fm, In fm (l_fams l) /\ mat_eqb (fm_energy fm) e = true) \/ ~ In (Anon (length (l_fams l))) (map fm_name (l_fams l))).
  Proof.
    intros l rel a b e I. unfold add_hopping_energy.
    destruct (find _ (order (l_fams l))) as [f|] eqn:Ef.
    - apply find_some in Ef as (Hf & Ee). assert (Hin : In f (l_fams l)) by (eapply Permutation_in; [apply order_perm|exact Hf]).
      pose proof (proj1 (mat_eqb_spec R _ _) Ee) as (Er & Ec & _). rewrite add_hopping_iff by auto. split.
      + intros (fm & Hfm & En & J). assert (fm = f) as ->.
        { pose proof (find_fam_in l fm I Hfm) as X. pose proof (find_fam_in l f I Hin) as Y. congruence. }
        rewrite Er, Ec in J. split; [exact J|]. left. eauto.
      + intros (J & _). exists f. rewrite Er, Ec. auto.
    - assert (Hno : ~ exists fm, In fm (l_fams l) /\ mat_eqb (fm_energy fm) e = true).
      { intros (fm & Hfm & E). assert (X : In fm (order (l_fams l))) by (eapply Permutation_in; [symmetry; apply order_perm|exact Hfm]).
        pose proof (find_none _ _ Ef fm X) as Y. cbn in Y. congruence. }
      destruct (register_hopping_energy (Anon (length (l_fams l))) e l) as [l' r] eqn:Er.
      pose proof (register_hopping_iff l (Anon (length (l_fams l))) e) as Hiff. rewrite Er in Hiff. cbn [snd] in Hiff. destruct r.
      + destruct (proj1 Hiff eq_refl) as (_ & _ & Hnew). assert (I' : lat_inv R P l') by (eapply inv_register; eauto).
        assert (E' : l' = Lat (l_subs l) (l_fams l ++ [Fam (Anon (length (l_fams l))) e (length (l_fams l)) []]) (l_offset l) (l_min l)).
        { unfold register_hopping_energy in Er. cbn [name_eqb] in Er. destruct (negb (hopping_ok e)); [discriminate|].
          destruct (find_fam l _); [discriminate|]. now injection Er. }
        rewrite add_hopping_iff by auto. 
        assert (T : all_terms l' = all_terms l) by (subst l'; unfold all_terms; cbn [l_fams]; rewrite flat_map_app; cbn; now rewrite app_nil_r).
        split.
        * intros (fm & Hfm & En & (sa & sb & J)). split; [|now right].
          assert (fm_energy fm = e).
          { subst l'. cbn [l_fams] in Hfm. apply in_app_iff in Hfm as [Hfm|[<-|[]]]; [|reflexivity]. exfalso. apply Hnew. rewrite <- En. now apply in_map. }
          subst e. exists sa, sb. rewrite T in J. subst l'. exact J.
        * intros ((sa & sb & J) & _). exists (Fam (Anon (length (l_fams l))) e (length (l_fams l)) []). split; [|split].
          -- subst l'. cbn. apply in_app_iff. right. now left.
          -- reflexivity.
          -- exists sa, sb. rewrite T. subst l'. exact J.
      + cbn [throw snd]. split; [discriminate|]. intros (J & [Hf|Hn]); [tauto|]. exfalso.
        assert (false = true); [|discriminate]. apply Hiff. split; [discriminate|]. split; [|auto].
        destruct J as (sa & sb & Ha & Hb & _ & _ & _ & Hr & Hc & _).
        destruct (li_sub _ _ _ I sa Ha) as (Pa & _). destruct (li_sub _ _ _ I sb Hb) as (Pb & _). lia.
  Qed.

  (** The registries a model starts with. *)
  Lemma start_sites_sound : forall cs subs reg, let l := calls offset_ok order cs in
    Permutation subs (l_subs l) -> site_registry subs = Ok reg -> sound_names R (map entry_of reg).
  Proof.
    intros cs subs reg l Hp Hreg. destruct (site_registry_content R P offset_ok order cs subs reg Hp Hreg) as (Hlen & Hat & Hall). fold l in Hlen, Hat, Hall.
    pose proof (inv_calls R P offset_ok order cs) as I. fold l in I.
    assert (Hentry : forall i, i < length reg -> exists s, In s (l_subs l) /\ sb_uid s = i /\ nth_error (map fst (map entry_of reg)) i = Some (sb_name s)).
    { intros i Hi. destruct (Hall i Hi) as (s & Hs & Hps & <-). exists s. split; auto. split; auto.
      rewrite !nth_error_map, (Hat s Hs Hps). reflexivity. }
    split.
    - apply NoDup_nth_error. intros i j Hi E. rewrite !map_length in Hi. destruct (Hentry i Hi) as (s & Hs & Us & Es).
      destruct (Nat.lt_ge_cases j (length reg)) as [Hj|Hj].
      + destruct (Hentry j Hj) as (s' & Hs' & Us' & Es'). assert (sb_name s = sb_name s') by congruence.
        assert (s = s'); [|congruence]. pose proof (find_sub_in l s I Hs). pose proof (find_sub_in l s' I Hs'). congruence.
      + rewrite (proj2 (nth_error_None (map fst (map entry_of reg)) j)) in E by (rewrite !map_length; lia). congruence.
    - intros Hb. apply In_nth_error in Hb as (i & Hi). assert (Hl : i < length reg).
      { assert (nth_error (map fst (map entry_of reg)) i <> None) as Hn by congruence. apply nth_error_Some in Hn. now rewrite !map_length in Hn. }
      destruct (Hentry i Hl) as (s & Hs & _ & Es). apply (li_blank _ _ _ I). replace Blank with (sb_name s) by congruence. now apply in_map.
  Qed.
  Lemma start_hops_sound : forall cs fams reg, let l := calls offset_ok order cs in
    Permutation fams (l_fams l) -> hopping_registry fams = Ok reg -> sound_names R (map entry_of reg).
  Proof.
    intros cs fams reg l Hp Hreg. rewrite (hopping_registry_ok R P offset_ok order cs fams Hp) in Hreg. injection Hreg as <-.
    pose proof (inv_calls R P offset_ok order cs) as I. fold l in I. unfold sound_names. rewrite !map_map. cbn. split; apply I.
  Qed.
End LatticeCalls.
