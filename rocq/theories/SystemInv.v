(* Invariants of the site table of every built system, for arbitrary modifiers. *)
From Verif Require Import Base Rle RleProofs Blocks BlocksProofs TablesSpec TablesProofs Scalar Foundation FoundationSpec FoundationFacts PopulateFacts
  Lattice LatticeSpec LatticeProofs UnitCellProofs Symmetry SymmetrySpec SymmetryProofs Hamiltonian HamiltonianSpec HamFacts SystemBuild HamApi
  Leads SystemMods ModsSpec ModsProofs ModsSystem WidenProofs GenProofs MakeProofs.
From Coq Require Import Permutation.
Local Open Scope nat_scope.

Lemma verify_nodup : forall d n, rle_verify d n = true -> rle_size d = n /\ NoDup (alias_ids d).
Proof.
  intros d n H. unfold rle_verify in H. apply andb_prop in H. destruct H as [H _]. apply andb_prop in H. destruct H as [H1 H2].
  apply Nat.eqb_eq in H1, H2. split; auto. unfold num_distinct in H2.
  eapply NoDup_incl_NoDup with (l := nodup Nat.eq_dec (alias_ids d)).
  - apply NoDup_nodup.
  - rewrite H2. unfold alias_ids. rewrite map_length. auto.
  - intros x Hx. apply nodup_In in Hx. auto.
Qed.

Lemma on_segment_length : forall {A} (f : list A -> outcome (list A)) l s n l', on_segment f l s n = Ok l' -> length l' = length l.
Proof.
  intros A f l s n l' E. unfold on_segment, segment in E. destruct (Nat.leb_spec (s + n) (length l)) as [H|H]; [|discriminate].
  cbn [obind] in E. apply obind_ok in E. destruct E as (x & _ & E). destruct (Nat.eqb_spec (length x) n); [|discriminate].
  injection E as <-. rewrite !app_length, firstn_length, skipn_length. lia.
Qed.

Lemma ofold_inv : forall {A B} (I : A -> Prop) (f : A -> B -> outcome A) l a a', (forall a b a', In b l -> I a -> f a b = Ok a' -> I a') ->
  I a -> ofold f l a = Ok a' -> I a'.
Proof.
  induction l as [|b l IH]; intros a a' H Ha E; cbn [ofold] in E.
  - injection E as <-. auto.
  - apply obind_ok in E. destruct E as (a1 & E1 & E2). eapply IH; [|eapply H; eauto|exact E2].
    + intros; eapply H; eauto. right; auto.
    + left; auto.
Qed.

Section Attach.
  Variable P : Type.
  Variable size lower : idx3.
  Variable uc : list (usite P).
  Variable pos : list P.

  Lemma fill_site_length : forall st ns st', fill_site st ns = Ok st' -> length (fst st') = length (fst st).
  Proof.
    intros st ns st' E. unfold fill_site in E. apply obind_ok in E. destruct E as (b & _ & E). destruct (negb b); [injection E as <-; auto|].
    apply obind_ok in E. destruct E as (v & _ & E). destruct (negb v); [|injection E as <-; auto].
    apply omap_ok in E. destruct E as (x & E & ->). cbn [fst]. unfold asetZ in E.
    apply obind_ok in E. destruct E as (y & _ & E). injection E as <-. apply upd_length.
  Qed.
  Lemma fill_length : forall l r ks st v, fill size uc l r ks st = Ok v -> length v = length (fst st).
  Proof.
    intros l r. induction ks as [|k ks IH]; intros st v E; cbn [fill] in E; [discriminate|]. apply obind_ok in E. destruct E as (st' & E1 & E2).
    assert (Q : length (fst st') = length (fst st)).
    { refine (ofold_inv (fun x => length (fst x) = length (fst st)) _ _ _ _ _ eq_refl E1). intros a b a' _ Ha Ea.
      apply fill_site_length in Ea. congruence. }
    destruct (existsb _ _); [rewrite (IH _ _ E2); auto|injection E2 as <-; auto].
  Qed.
  Lemma areas_length : forall ls v v', create_attachment_areas size lower uc pos ls v = Ok v' -> length v' = length v.
  Proof.
    intros ls v v' E. unfold create_attachment_areas in E. refine (ofold_inv (fun x => length x = length v) _ _ _ _ _ eq_refl E).
    intros a l a' _ Ha Ea. unfold create_attachment_area in Ea. apply obind_ok in Ea. destruct Ea as (kj & _ & Ea).
    apply fill_length in Ea. cbn [fst] in Ea. congruence.
  Qed.
End Attach.

(* ------------------------------------------------------------------ one step on the system *)
Section Step.
  Variable R : scalar.
  Variable P : Type.
  Variable reg hreg : list (name * mat R).

  Record sys_ok (s : sysdata P P) : Prop := {
    so_size : rle_size (sd_subs s) = length (sd_pos s);
    so_nodup : NoDup (alias_ids (sd_subs s));
    so_valid : sd_valid s = [] \/ length (sd_valid s) = length (sd_pos s)
  }.

  Lemma removed_ok : forall s s', sys_ok s -> remove_invalid s = Ok s' ->
    sys_ok s' /\ sd_valid s' = [] /\ alias_ids (sd_subs s') = alias_ids (sd_subs s).
  Proof.
    intros s s' [S1 S2 S3] E. unfold remove_invalid in E. destruct (sd_valid s) as [|b k] eqn:EV.
    - injection E as <-. split; [constructor; auto|]. auto.
    - set (keep := b :: k) in *. destruct (Nat.eqb_spec (length keep) (length (sd_pos s))) as [HL|HL]; [|discriminate]. cbn [negb] in E.
      destruct (rle_filter_labels keep (sd_subs s)) as (d & Ed & Lb & Ids & _); [rewrite S1; auto|].
      apply obind_ok in E. destruct E as (d' & Ed' & E). rewrite Ed in Ed'. injection Ed' as <-.
      apply obind_ok in E. destruct E as (h & _ & E). apply obind_ok in E. destruct E as (bs & _ & E). injection E as <-.
      cbn [sd_subs sd_valid sd_pos]. split; [|split; [reflexivity|exact Ids]]. constructor; cbn [sd_subs sd_valid sd_pos].
      + change (rle_size d = length (mask keep (sd_pos s))). rewrite rle_size_labels, Lb. rewrite !mask_length; auto. rewrite <- rle_size_labels, S1. exact HL.
      + unfold alias_ids. rewrite Ids. exact S2.
      + auto.
  Qed.

  Lemma step_ok : forall s m s', sys_ok s -> (forall n e mk id, m = SiteGen n e mk -> reg_id reg n = Ok id -> ~ In id (alias_ids (sd_subs s))) ->
    apply_system reg hreg s m = Ok s' ->
    sys_ok s' /\ forall id, In id (alias_ids (sd_subs s')) -> In id (alias_ids (sd_subs s)) \/ exists n e mk, m = SiteGen n e mk /\ reg_id reg n = Ok id.
  Proof.
    intros s m s' SO HF E. destruct m as [f k|f|n e mk|n e mk]; cbn [apply_system] in E.
    - apply obind_ok in E. destruct E as (v & E & E2). destruct (0 <? k)%Z; [discriminate|]. injection E2 as <-. destruct SO as [S1 S2 S3].
      split; [|auto]. constructor; auto. right. cbn [with_valid sd_valid sd_pos].
      refine (ofold_inv (fun x => length x = length (sd_pos s)) _ _ _ _ _ _ E).
      + intros a b a' _ Ha Ea. apply obind_ok in Ea. destruct Ea as (ps & _ & Ea). apply obind_ok in Ea. destruct Ea as (nm & _ & Ea).
        apply on_segment_length in Ea. congruence.
      + destruct (sd_valid s); [apply repeat_length|]. destruct S3; [discriminate|auto].
    - apply omap_ok in E. destruct E as (ps & E & ->). destruct SO as [S1 S2 S3].
      assert (Q : length ps = length (sd_pos s)).
      { refine (ofold_inv (fun x => length x = length (sd_pos s)) _ _ _ _ _ eq_refl E). intros a b a' _ Ha Ea.
        apply obind_ok in Ea. destruct Ea as (nm & _ & Ea). apply on_segment_length in Ea. congruence. }
      split; [|auto]. constructor; cbn [with_pos sd_subs sd_pos sd_valid]; auto; rewrite Q; auto.
    - apply obind_ok in E. destruct E as (s1 & E1 & E). destruct (removed_ok s s1 SO E1) as ([T1 T2 T3] & TV & TI).
      apply obind_ok in E. destruct E as (ps & _ & E). apply obind_ok in E. destruct E as (id & EI & E). injection E as <-.
      pose proof (HF n e mk id eq_refl EI) as NI. rewrite <- TI in NI.
      destruct (rle_add_split (sd_subs s1) id (m_rows e) (length ps)) as [(d0 & x & D1 & D2 & _)|(D & _)].
      { exfalso. apply NI. rewrite D1. unfold alias_ids. rewrite map_app, in_app_iff. right. left. exact D2. }
      split.
      + constructor; cbn [sd_subs sd_pos sd_valid]; rewrite ?D, ?TV; auto.
        * rewrite !rle_size_labels in *. unfold labels. rewrite flat_map_app, !app_length. unfold labels in T1. rewrite T1. cbn. rewrite app_nil_r, repeat_length. reflexivity.
        * unfold alias_ids. rewrite map_app. cbn [map e_id]. apply NoDup_app_intro; auto; [constructor; [intros []|constructor]|].
          intros y Hy [<-|[]]. auto.
      + intros i Hi. cbn [sd_subs] in Hi. rewrite D in Hi. unfold alias_ids in Hi. rewrite map_app, in_app_iff in Hi.
        destruct Hi as [Hi|[<-|[]]]; [left; rewrite <- TI; exact Hi|]. right. exists n, e, mk. auto.
    - apply obind_ok in E. destruct E as (s1 & E1 & E). destruct (removed_ok s s1 SO E1) as ([T1 T2 T3] & TV & TI).
      apply obind_ok in E. destruct E as (rc & _ & E). apply obind_ok in E. destruct E as (id & _ & E). apply obind_ok in E. destruct E as (h & _ & E).
      injection E as <-. split; [constructor; auto|]. cbn [sd_subs]. rewrite TI. auto.
  Qed.

  Lemma steps_ok : forall gms s s', sys_ok s -> NoDup (map fst (site_families gms)) ->
    (forall n id, In n (map fst (site_families gms)) -> reg_id reg n = Ok id -> ~ In id (alias_ids (sd_subs s))) ->
    ofold (apply_system reg hreg) gms s = Ok s' -> sys_ok s'.
  Proof.
    induction gms as [|m gms IH]; intros s s' SO ND HF E; cbn [ofold] in E.
    - injection E as <-. auto.
    - apply obind_ok in E. destruct E as (s1 & E1 & E2).
      assert (HI : forall n, In n (map fst (site_families gms)) -> In n (map fst (site_families (m :: gms)))).
      { intros n H. unfold site_families. cbn [flat_map]. rewrite map_app, in_app_iff. auto. }
      destruct (step_ok s m s1 SO) as [SO1 ID1]; auto.
      { intros n e mk id -> EI. apply (HF n id); auto. unfold site_families. cbn. auto. }
      apply (IH s1 s'); auto.
      + destruct m; auto. unfold site_families in ND. cbn in ND. inversion ND; auto.
      + intros n id Hn EI Hid. destruct (ID1 id Hid) as [H|(n' & e & mk & -> & EI')]; [exact (HF n id (HI n Hn) EI H)|].
        assert (n' = n). { destruct (reg_id_some reg n id EI) as (x & X1 & _). destruct (reg_id_some reg n' id EI') as (y & Y1 & _). congruence. }
        subst n'. unfold site_families in ND. cbn in ND. inversion ND as [|? ? N1 N2]; subst. auto.
  Qed.
End Step.
Arguments sys_ok {P}.

(* ------------------------------------------------------------------ the whole build *)
Section Whole.
  Variable R : scalar.
  Variable P : Type.
  Variable offset_ok : P -> bool.
  Variable order : list (family R) -> list (family R).
  Variable cs : list (lcall R P).
  Notation l := (calls offset_ok order cs).
  Variable subs : list (sublattice R P).
  Variable fams : list (family R).
  Hypothesis Hs : Permutation subs (l_subs l).
  Hypothesis Hf : Permutation fams (l_fams l).
  Variable uc : list (usite P).
  Hypothesis Huc : unit_cell subs fams = Ok uc.
  Variable reg hreg : list (option (name * mat R)).
  Hypothesis Hreg : site_registry subs = Ok reg.
  Hypothesis Hhreg : hopping_registry fams = Ok hreg.
  Hypothesis Hprim : forall s o, In s (l_subs l) -> In o (l_subs l) -> sb_uid o = sb_alias s -> primary o.
  Variable size lower : idx3.
  Hypothesis Hsize : positive_block size.
  Variable s : sym.
  Hypothesis Hper : block_holds_period size s.
  Notation N := (num_block_sites size (length uc)).
  Variable fpos : list P.
  Variable dflt : P.
  Variable padd : P -> P -> P.
  Hypothesis Hpos : length fpos = N.
  Variable shift : idx3 -> P.
  Variable inside : list bool.
  Hypothesis Hinside : length inside = N.
  Notation nfam := (length (l_fams l)).
  Variable mods : list (smod R P).
  Notation R1 := (map entry_of reg ++ site_families mods).
  Notation H1 := (map entry_of hreg ++ hop_families mods).
  Hypothesis Hnames : NoDup (map fst R1).

  Lemma split_families : forall ms : list (smod R P), site_families (snd (split_mods ms)) = site_families ms.
  Proof. induction ms as [|m ms IH]; [reflexivity|]. cbn [split_mods]. destruct m; cbn [requires_system snd fst]; auto; rewrite IH; reflexivity. Qed.

  Lemma foundation_length : forall st m st', length (fst st) = N -> length (snd st) = N -> apply_foundation size uc subs st m = Ok st' ->
    length (fst st') = N /\ length (snd st') = N.
  Proof.
    intros st m st' L1 L2 E. destruct m as [f k|f| |]; cbn [apply_foundation] in E.
    - apply obind_ok in E. destruct E as (v & E1 & E). apply omap_ok in E. destruct E as (v2 & E2 & ->). cbn [fst snd]. split; auto.
      assert (Q : length v = N).
      { refine (ofold_inv (fun x => length x = N) _ _ _ _ _ L2 E1). intros a b a' _ Ha Ea. apply obind_ok in Ea. destruct Ea as (x & _ & Ea).
        apply obind_ok in Ea. destruct Ea as (ps & _ & Ea). apply on_segment_length in Ea. congruence. }
      destruct (0 <? k)%Z; [|injection E2 as <-; auto].
      destruct (trim_sites size uc Hsize (api_ok R P offset_ok order cs subs fams Hs Hf uc Huc) _ k v (Permutation_refl _) Q) as (w & Ew & Lw & _).
      rewrite <- remove_dangling_all in Ew. congruence.
    - apply omap_ok in E. destruct E as (ps & E & ->). cbn [fst snd]. split; auto.
      refine (ofold_inv (fun x => length x = N) _ _ _ _ _ L1 E). intros a b a' _ Ha Ea. apply obind_ok in Ea. destruct Ea as (x & _ & Ea).
      apply on_segment_length in Ea. congruence.
    - injection E as <-. auto.
    - injection E as <-. auto.
  Qed.

  Lemma built_ok : forall leads sys lts,
    make_system dflt padd size lower uc subs nfam s shift R1 H1 mods leads fpos inside = Ok (sys, lts) ->
    sys_ok sys /\ sd_valid sys = [] /\ 0 < length (sd_pos sys).
  Proof.
    intros leads sys lts E. unfold make_system in E.
    destruct (sym_apply_ok size (length uc) s inside Hsize Hper Hinside) as (v0 & E0 & L0 & _). rewrite E0 in E. cbn [obind] in E.
    apply obind_ok in E. destruct E as ([pos v] & EF & E). cbn [fst snd] in E.
    assert (QF : length pos = N /\ length v = N).
    { refine (ofold_inv (fun st => length (fst st) = N /\ length (snd st) = N) _ _ _ (pos, v) _ _ EF).
      - intros a b a' _ [A1 A2] Ea. eapply foundation_length; eauto.
      - cbn. split; [exact Hpos|congruence]. }
    destruct QF as [LP LV].
    apply obind_ok in E. destruct E as (v' & EC & E). apply areas_length in EC. rewrite LV in EC.
    apply obind_ok in E. destruct E as (fi & _ & E). apply obind_ok in E. destruct E as (lts' & _ & E).
    destruct (api_populate R P offset_ok order cs subs fams Hs Hf uc Huc size Hsize v' EC pos dflt LP) as (d & hb & EP & VF & LB & HN & HL & HB').
    assert (LH : length hreg = nfam) by (rewrite (hreg_eq R P offset_ok order cs fams Hf hreg Hhreg); apply map_length).
    rewrite app_length, map_length, LH in E. rewrite (populate_widen _ _ _ _ (length (hop_families mods)) _ _ _ _ _ EP) in E. cbn [obind fst snd] in E.
    apply obind_ok in E. destruct E as (bs & _ & E). apply obind_ok in E. destruct E as (sys1 & ES & E). apply obind_ok in E. destruct E as (sys2 & ER & E).
    destruct (Nat.eqb_spec (length (sd_pos sys2)) 0) as [|NZ]; [discriminate|]. injection E as <- <-.
    destruct (verify_nodup _ _ VF) as [SZ ND].
    assert (LM : length (mask v' pos) = count_true v') by (rewrite mask_length by congruence; reflexivity).
    assert (SO : sys_ok sys1).
    { eapply steps_ok; [| | |exact ES].
      - constructor; cbn [sd_subs sd_pos sd_valid]; auto. congruence.
      - rewrite split_families. rewrite map_app in Hnames. apply NoDup_app_r in Hnames. exact Hnames.
      - intros n id Hn EI Hid. cbn [sd_subs] in Hid. rewrite split_families in Hn.
        destruct (reg_id_some _ _ _ EI) as (e & X & _).
        assert (id < length reg).
        { (* ids of the lattice *)
          unfold alias_ids in Hid. apply in_map_iff in Hid. destruct Hid as (x & <- & Hx).
          destruct (api_numbering R P offset_ok order cs subs fams Hs Hf uc Huc size Hsize v' EC pos dflt LP _ _ _ EP) as (_ & A2 & _ & A4 & A5 & _).
          pose proof (populate_pos _ _ _ _ _ _ _ _ _ EP) as PP. rewrite Forall_forall in PP. specialize (PP x Hx).
          assert (Y : In (e_id x, e_norb x) (labels d)).
          { apply in_flat_map. exists x. split; auto. destruct (e_num x); [lia|left; reflexivity]. }
          apply In_nth_error in Y. destruct Y as (k & Hk). assert (k < number v' N) by (rewrite <- A2; apply nth_error_Some; congruence).
          destruct (A5 k H) as (i & a & Ci & La & Fl & Ek). destruct (nth_error uc a) as [u|] eqn:U; [|apply nth_error_None in U; lia].
          destruct (A4 i a u Ci U Fl) as [_ Q]. rewrite Ek, Hk in Q. injection Q as -> _.
          rewrite (api_cell R P offset_ok order cs subs fams Hs Hf uc Huc) in U. apply (cell_sub R P l fams) in U.
          destruct U as (sb & S1 & _ & _ & _ & S5). rewrite S5.
          destruct (site_entry R P offset_ok order cs subs Hs reg Hreg Hprim sb S1) as [G _]. rewrite map_length in G. exact G. }
        rewrite nth_error_app1 in X by (rewrite map_length; auto). apply nth_error_In in X. apply (in_map fst) in X. cbn [fst] in X.
        rewrite map_app in Hnames. eapply NoDup_app_disj; eauto. }
    destruct (removed_ok P sys1 sys2 SO ER) as (A & B & _). split; auto. split; auto. lia.
  Qed.
End Whole.
