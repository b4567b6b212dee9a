(* Systems built from a lattice made through the API satisfy the assumptions of the
   Hamiltonian theorems. *)
From Verif Require Import Base Rle RleProofs Blocks BlocksProofs TablesSpec Scalar Foundation FoundationSpec Lattice LatticeSpec
  LatticeProofs UnitCellProofs LatticeFacts PopulateFacts Symmetry SymmetrySpec BoundaryProofs
  Hamiltonian HamiltonianSpec HamProofs HamElements HamFacts SystemBuild.
From Coq Require Import Permutation.

Lemma rle_add_pos : forall d id norb c, 0 < c -> Forall (fun e => 0 < e_num e) d -> Forall (fun e => 0 < e_num e) (rle_add d id norb c).
Proof.
  induction d as [|e d IH]; intros id norb c Hc H; [repeat constructor; auto|].
  inversion H; subst. cbn [rle_add]. destruct d as [|e' d'].
  - destruct (e_id e =? id); repeat constructor; cbn [e_num]; auto; lia.
  - constructor; auto.
Qed.

Lemma populate_pos : forall {P} (dflt : P) size uc nfam fpos valid pos d hb,
  populate_system dflt size uc nfam fpos valid = Ok (pos, d, hb) -> Forall (fun e => 0 < e_num e) d.
Proof.
  intros P dflt size uc nfam fpos valid pos d hb E. unfold populate_system in E.
  destruct (finalized_indices size uc nfam valid) as [fi| |]; cbn [obind] in E; try discriminate.
  match type of E with obind (ofold ?f ?l0 ?a) _ = _ =>
    assert (G : forall l st st', Forall (fun e => 0 < e_num e) (snd (fst st)) -> ofold f l st = Ok st' -> Forall (fun e => 0 < e_num e) (snd (fst st')));
    [|destruct (ofold f l0 a) as [st| |] eqn:Ef; cbn [obind] in E; try discriminate] end.
  { induction l as [|s l IH]; intros st st' H Ef; cbn [ofold] in Ef; [injection Ef as <-; auto|].
    unfold populate_step at 1 in Ef.
    destruct (agetZ (fst (fst fi)) (s_flat s)) as [ix| |]; cbn [obind] in Ef; try discriminate.
    destruct (ix <? 0)%Z; [cbn [obind] in Ef; eapply IH; eauto|].
    repeat match type of Ef with
    | obind (obind ?t _) _ = _ => destruct t; cbn [obind] in Ef; try discriminate
    end.
    eapply IH; [|exact Ef]. cbn [fst snd]. apply rle_add_pos; auto. }
  destruct (rle_verify (snd (fst st)) (snd fi)); [|discriminate]. injection E as ->.
  change d with (snd (fst (pos, d, hb))). eapply G; [|exact Ef]. constructor.
Qed.

Lemma in_stored_iff : forall h f c, In (f, c) (stored h) <-> In c (nth f (hb_blocks h) []).
Proof.
  intros h f c. unfold stored. rewrite in_flat_map. split.
  - intros ([g l] & Hl & Hc). apply in_map_iff in Hc. destruct Hc as (c' & E & Hc). cbn [fst snd] in *. injection E as -> ->.
    apply (with_family_nth (hb_blocks h)) in Hl. rewrite (nth_error_nth _ _ _ Hl). auto.
  - intros Hc. destruct (nth_error (hb_blocks h) f) as [l|] eqn:E.
    + rewrite (nth_error_nth _ _ _ E) in Hc. exists (f, l). split; [apply (with_family_nth (hb_blocks h)); auto|]. apply in_map_iff. eauto.
    + apply nth_error_None in E. rewrite nth_overflow in Hc by auto. destruct Hc.
Qed.

Lemma stored_snd : forall h, map snd (stored h) = concat (hb_blocks h).
Proof.
  intros h. unfold stored. rewrite map_flat_map.
  transitivity (flat_map (fun fb : nat * list coo => snd fb) (with_family (hb_blocks h))).
  - apply flat_map_ext. intros [f l]. rewrite map_map. cbn [snd fst]. apply map_id.
  - rewrite (flat_map_snd (fun l : list coo => l)). clear. induction (hb_blocks h) as [|b l IH]; [reflexivity|]. cbn. congruence.
Qed.

Section ApiHam.
  Variable R : scalar.
  Variable P : Type.
  Variable offset_ok : P -> bool.
  Variable order : list (family R) -> list (family R).
  Variable cs : list (lcall R P).
  Notation l := (calls offset_ok order cs).
  Variable subs : list (sublattice R P).
  Variable fams : list (family R).
  Hypothesis Hs : Permutation subs (l_subs l).
  Hypothesis Hf : Permutation fams (l_fams l).
  Variable uc : list (usite P).
  Hypothesis Huc : unit_cell subs fams = Ok uc.
  Variable reg hreg : list (option (name * mat R)).
  Hypothesis Hreg : site_registry subs = Ok reg.
  Hypothesis Hhreg : hopping_registry fams = Ok hreg.
  (** aliases refer to proper sublattices *)
  Hypothesis Hprim : forall s o, In s (l_subs l) -> In o (l_subs l) -> sb_uid o = sb_alias s -> primary o.
  Variable size : idx3.
  Hypothesis Hsize : positive_block size.
  Variable s : sym.
  Hypothesis Hper : block_holds_period size s.
  Variable valid : list bool.
  Notation N := (num_block_sites size (length uc)).
  Hypothesis Hvalid : length valid = N.
  Hypothesis Hin : forall i a, cell_of size i -> a < length uc -> flagged size valid (i, a) = true -> in_period size s i.
  Variable fpos : list P.
  Variable dflt : P.
  Hypothesis Hpos : length fpos = N.
  Variable shift : idx3 -> P.

  Lemma hreg_eq : hreg = map (fun f => Some (fm_name f, fm_energy f)) (l_fams l).
  Proof. pose proof (hopping_registry_ok R P offset_ok order cs fams Hf) as E. congruence. Qed.

  Lemma hop_entry : forall f, In f (l_fams l) -> reg_entry (map entry_of hreg) (fm_id f) = (fm_name f, fm_energy f).
  Proof.
    intros f H. rewrite hreg_eq. unfold reg_entry. rewrite map_map. cbn [entry_of].
    pose proof (inv_calls R P offset_ok order cs) as I. apply In_nth_error in H. destruct H as (k & Hk).
    assert (fm_id f = k).
    { assert (X : nth_error (map (@fm_id R) (l_fams l)) k = Some (fm_id f)) by (rewrite nth_error_map, Hk; reflexivity).
      rewrite (li_fids _ _ _ I) in X. assert (k < length (l_fams l)) by (apply nth_error_Some; congruence).
      rewrite (nth_error_nth' _ 0), seq_nth in X by (rewrite ?seq_length; auto). cbn in X. congruence. }
    subst k. erewrite nth_error_nth; [reflexivity|]. rewrite nth_error_map, Hk. reflexivity.
  Qed.

  Lemma site_entry : forall sb, In sb (l_subs l) -> sb_alias sb < length (map entry_of reg) /\
    snd (reg_entry (map entry_of reg) (sb_alias sb)) = sb_energy sb.
  Proof.
    intros sb H. pose proof (inv_calls R P offset_ok order cs) as I. destruct (li_alias _ _ _ I sb H) as (o & Io & O1 & O2 & _).
    pose proof (site_registry_alias R P offset_ok order cs subs reg sb o Hs Hreg H Io O1 (Hprim sb o H Io O1)) as E.
    rewrite map_length. split; [apply nth_error_Some; congruence|]. unfold reg_entry.
    erewrite nth_error_nth; [|rewrite nth_error_map, E; reflexivity]. reflexivity.
  Qed.

  Definition in_table (sys : hsys R P) (f : nat) (c : nat * nat) : Prop :=
    exists fam t i a b u v i', In fam (l_fams l) /\ fm_id fam = f /\ In t (fm_terms fam) /\ cell_of size i /\ cell_of size i' /\
      nth_error uc a = Some u /\ u_uid u = t_from t /\ nth_error uc b = Some v /\ u_uid v = t_to t /\
      flagged size valid (i, a) = true /\ flagged size valid (i', b) = true /\
      c = (number valid (place size i a), number valid (place size i' b)).

  Theorem system_ok : exists sys, build_system dflt size uc s shift reg hreg fpos valid = Ok sys /\
    wf_hsys sys /\ simple_bonds sys /\
    (forall e, In e (hs_subs sys) -> exists sb, In sb (l_subs l) /\ e_id e = sb_alias sb /\
        snd (reg_entry (hs_site sys) (e_id e)) = sb_energy sb) /\
    (forall f c h, h = hs_hops sys \/ In h (map fst (hs_bounds sys)) -> In (f, c) (stored h) ->
        exists fam, In fam (l_fams l) /\ fm_id fam = f /\ reg_entry (hs_hop sys) f = (fm_name fam, fm_energy fam)).
  Proof.
    pose proof (inv_calls R P offset_ok order cs) as I.
    assert (LH : length hreg = length (l_fams l)) by (rewrite hreg_eq; apply map_length).
    unfold build_system. rewrite LH.
    destruct (api_populate R P offset_ok order cs subs fams Hs Hf uc Huc size Hsize valid Hvalid fpos dflt Hpos) as (d & hb & E & VF & LB & HN & HL & HB).
    destruct (api_numbering R P offset_ok order cs subs fams Hs Hf uc Huc size Hsize valid Hvalid fpos dflt Hpos _ _ _ E) as (A1 & A2 & A3 & A4 & A5 & A6).
    destruct (api_bonds R P offset_ok order cs subs fams Hs Hf uc Huc size Hsize valid Hvalid fpos dflt Hpos _ _ _ E) as (B1 & B2 & B3 & B4).
    destruct (api_boundaries R P offset_ok order cs subs fams Hs Hf uc Huc size Hsize s Hper valid Hvalid Hin) as (bs & EB & D1 & D2 & D3 & D4).
    rewrite E. cbn [obind]. rewrite EB. cbn [obind fst snd]. eexists. split; [reflexivity|]. cbn [hs_subs hs_site hs_hop hs_hops hs_bounds].
    pose proof (populate_pos _ _ _ _ _ _ _ _ _ E) as PP. rewrite Forall_forall in PP.
    assert (EL : forall e, In e d -> exists sb, In sb (l_subs l) /\ e_id e = sb_alias sb /\ e_norb e = m_cols (sb_energy sb)).
    { intros e He. specialize (PP e He).
      assert (X : In (e_id e, e_norb e) (labels d)).
      { apply in_flat_map. exists e. split; auto. destruct (e_num e); [lia|left; reflexivity]. }
      apply In_nth_error in X. destruct X as (k & Hk). assert (k < number valid N) by (rewrite <- A2; apply nth_error_Some; congruence).
      destruct (A5 k H) as (i & a & Ci & La & Fl & Ek). destruct (nth_error uc a) as [u|] eqn:U; [|apply nth_error_None in U; lia].
      destruct (A4 i a u Ci U Fl) as [_ Q]. rewrite Ek, Hk in Q. injection Q as -> ->.
      rewrite (api_cell R P offset_ok order cs subs fams Hs Hf uc Huc) in U. apply (cell_sub R P l fams) in U.
      destruct U as (sb & S1 & S2 & S3 & S4 & S5). exists sb. auto. }
    assert (WB : forall f c fam t i a b u v i', In fam (l_fams l) -> fm_id fam = f -> In t (fm_terms fam) -> cell_of size i -> cell_of size i' ->
        nth_error uc a = Some u -> u_uid u = t_from t -> nth_error uc b = Some v -> u_uid v = t_to t ->
        flagged size valid (i, a) = true -> flagged size valid (i', b) = true ->
        c = (number valid (place size i a), number valid (place size i' b)) ->
        fst c < rle_size d /\ snd c < rle_size d /\
        m_rows (snd (reg_entry (map entry_of hreg) f)) = norb_at d (fst c) /\ m_cols (snd (reg_entry (map entry_of hreg) f)) = norb_at d (snd c)).
    { intros f c fam t i a b u v i' H1 H2 H3 H4 H5 H6 H7 H8 H9 H10 H11 ->. cbn [fst snd].
      destruct (A4 i a u H4 H6 H10) as [_ Q1]. destruct (A4 i' b v H5 H8 H11) as [_ Q2].
      rewrite rle_size_labels. split; [apply nth_error_Some; congruence|]. split; [apply nth_error_Some; congruence|].
      subst f. rewrite hop_entry by auto. cbn [snd]. unfold norb_at. change (site_list d) with (labels d).
      rewrite (nth_error_nth _ _ _ Q1), (nth_error_nth _ _ _ Q2). cbn [snd].
      destruct (li_terms _ _ _ I fam t H1 H3) as (sa & sb & T1 & T2 & T3 & T4 & T5 & T6 & _).
      rewrite (api_cell R P offset_ok order cs subs fams Hs Hf uc Huc) in H6, H8.
      apply (cell_sub R P l fams) in H6. apply (cell_sub R P l fams) in H8.
      destruct H6 as (s1 & S1 & _ & S3 & S4 & _). destruct H8 as (s2 & R1 & _ & R3 & R4 & _).
      assert (s1 = sa) by (apply (sub_uid_inj R P l I); auto; congruence). assert (s2 = sb) by (apply (sub_uid_inj R P l I); auto; congruence). subst s1 s2.
      rewrite S3, R3. destruct (li_sub _ _ _ I sa T1) as (_ & HM). destruct HM as (_ & HM & _). split; congruence. }
    split; [|split; [|split]].
    - split; [cbn [hs_pos hs_subs]; rewrite rle_size_labels; congruence|]. cbn [hs_subs].
      split; [unfold rle_verify in VF; rewrite !andb_true_iff in VF; tauto|].
      split; [|split].
      + intros e He. cbn [hs_site]. destruct (EL e He) as (sb & S1 & S2 & S3). destruct (site_entry sb S1) as [G1 G2].
        rewrite S2, G2. destruct (li_sub _ _ _ I sb S1) as (U1 & _ & U2 & _). rewrite S3, U2. auto.
      + split; [cbn [hs_hop hs_hops]; rewrite map_length, LH, B1; auto|]. intros f c Hc. cbn [hs_subs hs_hop hs_hops] in *.
        apply in_stored_iff in Hc. apply B2 in Hc. destruct Hc as (fam & t & F1 & F2 & F3 & i & a & b & u & v & X1 & X2 & X3 & X4 & X5 & X6 & X7 & X8 & X9).
        eapply WB; [exact F1|exact F2|exact F3|exact X1|exact X2|exact X3|exact X4|exact X5|exact X6|exact X7|exact X8|exact X9].
      + intros b0 Hb0. cbn [hs_bounds] in Hb0. apply in_map_iff in Hb0. destruct Hb0 as (bd & <- & Hbd). cbn [fst].
        destruct (D2 bd Hbd) as (_ & _ & G1 & _ & G2).
        split; [cbn [hs_hop]; rewrite map_length, LH, G1; auto|]. intros f c Hc. cbn [hs_subs hs_hop].
        apply in_stored_iff in Hc. apply G2 in Hc. destruct Hc as (fam & t & F1 & F2 & F3 & i & a & b & u & v & X1 & X2 & X3 & X4 & X5 & X6 & X7 & X8 & X9).
        eapply WB; [exact F1|exact F2|exact F3|exact X1|exact X2|exact X3|exact X4|exact X5|exact X6|exact X7|exact X8|exact X9].
    - unfold simple_bonds. cbn [hs_hops]. rewrite stored_snd. apply NoDup_app_intro.
      + exact B3.
      + apply FinFun.Injective_map_NoDup; auto. intros [x y] [x' y'] Q. cbn [fst snd] in Q. congruence.
      + intros [p q] H1 H2. apply in_map_iff in H2. destruct H2 as ([x y] & Q & H2). cbn [fst snd] in Q. injection Q as -> ->. exact (B4 _ _ H1 H2).
    - intros e He. destruct (EL e He) as (sb & S1 & S2 & S3). exists sb. split; auto. split; auto. rewrite S2. apply (site_entry sb S1).
    - intros f c h Hh Hc. apply in_stored_iff in Hc.
      assert (exists fam, In fam (l_fams l) /\ fm_id fam = f) as (fam & F1 & F2).
      { destruct Hh as [->|Hh].
        - apply B2 in Hc. destruct Hc as (fam & _ & F1 & F2 & _). eauto.
        - rewrite map_map in Hh. cbn [fst] in Hh. apply in_map_iff in Hh. destruct Hh as (bd & <- & Hbd).
          destruct (D2 bd Hbd) as (_ & _ & _ & _ & G2). apply G2 in Hc. destruct Hc as (fam & _ & F1 & F2 & _). eauto. }
      exists fam. split; auto. split; auto. subst f. apply hop_entry; auto.
  Qed.
End ApiHam.
