(* Combination of the system lemmas for C33 and C44-C47. *)
From Verif Require Import Base Rle RleProofs Blocks BlocksProofs TablesSpec TablesProofs Scalar Foundation FoundationSpec FoundationFacts PopulateFacts
  Lattice LatticeSpec LatticeProofs UnitCellProofs LatticeFacts Symmetry SymmetrySpec Hamiltonian HamiltonianSpec HamFacts SystemBuild HamApi HamCor
  Leads LeadsSpec LeadAttach LeadStruct LeadCor SystemMods ModsSpec ModsProofs ModsSystem WidenProofs GenProofs MakeProofs ExtendProofs.
From Coq Require Import QArith Permutation.
Local Open Scope nat_scope.

(* ------------------------------------------------------------------ nearest site *)
Lemma block_of_id : forall d id, NoDup (alias_ids d) -> (exists n, n < rle_size d /\ fst (nth n (site_list d) (0, 0)) = id) ->
  exists b, find (fun b => e_id (it_e b) =? id) (Rle.iter d) = Some b /\ 0 < e_num (it_e b) /\ it_sys b + e_num (it_e b) <= rle_size d /\
    forall n, n < rle_size d -> (fst (nth n (site_list d) (0, 0)) = id <-> it_sys b <= n < it_sys b + e_num (it_e b)).
Proof.
  intros d id ND (n0 & Hn0 & En0).
  assert (COV : forall n, n < rle_size d -> exists b k, In b (Rle.iter d) /\ k < e_num (it_e b) /\ n = it_sys b + k /\ fst (nth n (site_list d) (0, 0)) = e_id (it_e b)).
  { intros n Hn. destruct (iter_cover d 0 0 n ltac:(lia)) as (b & k & B1 & B2 & B3). exists b, k. repeat split; auto.
    pose proof (iter_label d 0 0 b k B1 B2) as Q. rewrite Nat.sub_0_r, <- B3 in Q. change (site_list d) with (labels d). rewrite (nth_error_nth _ _ _ Q). reflexivity. }
  assert (UNI : forall b c, In b (Rle.iter d) -> In c (Rle.iter d) -> e_id (it_e b) = e_id (it_e c) -> b = c).
  { clear COV Hn0 En0. unfold Rle.iter. generalize 0 at 1 3 as sys. generalize 0 as ham. revert ND. induction d as [|e d IH]; intros ND ham sys b c Hb Hc E; [destruct Hb|].
    cbn [iter_from] in Hb, Hc. cbn in ND. inversion ND as [|? ? N1 N2]; subst.
    assert (NI : forall x s h, In x (iter_from d s h) -> In (e_id (it_e x)) (alias_ids d)).
    { intros x s h Hx. apply iter_inside in Hx. apply in_map. tauto. }
    destruct Hb as [<-|Hb], Hc as [<-|Hc]; auto.
    - exfalso. apply N1. cbn in E. rewrite E. eapply NI; eauto.
    - exfalso. apply N1. cbn in E. rewrite <- E. eapply NI; eauto.
    - eapply IH; eauto. }
  destruct (COV n0 Hn0) as (b & k & B1 & B2 & B3 & B4).
  destruct (find (fun b => e_id (it_e b) =? id) (Rle.iter d)) as [b'|] eqn:EF.
  - apply find_some in EF. destruct EF as [F1 F2]. apply Nat.eqb_eq in F2.
    assert (b' = b) by (apply UNI; auto; congruence). subst b'. exists b. split; auto. split; [lia|].
    pose proof (iter_inside _ _ _ _ B1) as (_ & _ & X). split; [lia|]. intros n Hn. split.
    + intros E. destruct (COV n Hn) as (c & j & C1 & C2 & C3 & C4). assert (c = b) by (apply UNI; auto; congruence). subst c. lia.
    + intros E. pose proof (iter_label d 0 0 b (n - it_sys b) B1 ltac:(lia)) as Q. rewrite Nat.sub_0_r in Q.
      replace (it_sys b + (n - it_sys b)) with n in Q by lia. change (site_list d) with (labels d). rewrite (nth_error_nth _ _ _ Q). auto.
  - exfalso. pose proof (find_none _ _ EF b B1) as Q. cbn in Q. apply Nat.eqb_neq in Q. congruence.
Qed.

Section Nearest.
  Variable R : scalar.
  Variable P : Type.
  Variable reg : list (name * mat R).
  Variable s : sysdata P P.
  Hypothesis Hsize : rle_size (sd_subs s) = length (sd_pos s).
  Variable dist : P -> Q.

  Lemma nearest_in : forall n lo hi, sublattice_range reg s n = Ok (lo, hi) -> lo < hi -> hi <= length (sd_pos s) ->
    exists i p, find_nearest dist reg s n = Ok i /\ lo <= i < hi /\ nth_error (sd_pos s) i = Some p /\
      forall j q, lo <= j < hi -> nth_error (sd_pos s) j = Some q -> (dist p <= dist q)%Q /\ (j < i -> ~ (dist q <= dist p)%Q).
  Proof.
    intros n lo hi ER H1 H2. unfold find_nearest. rewrite ER. cbn [obind fst snd].
    destruct (nth_error (sd_pos s) lo) as [p0|] eqn:E0; [|apply nth_error_None in E0; lia]. unfold aget at 1. rewrite E0. cbn [obind].
    destruct (nearest_scan dist (sd_pos s) (hi - (lo + 1)) (lo + 1) (lo, dist p0)) as (b & E & B1 & B2 & (p & B3 & B4) & B5 & B6 & B7); cbn [fst snd]; try lia; eauto.
    rewrite E. cbn [omap obind]. cbn [fst snd] in *. exists (fst b), p. split; [reflexivity|]. split; [lia|]. split; [exact B3|].
    intros j q Hj Eq. rewrite <- B4. destruct (Nat.eq_dec j lo) as [->|NE].
    - rewrite E0 in Eq. injection Eq as <-. split; [exact B5|]. intros H. apply B6. lia.
    - apply B7; auto. lia.
  Qed.

  Lemma nearest_ok : forall n, NoDup (alias_ids (sd_subs s)) ->
    (exists k, k < length (sd_pos s) /\ (n = Blank \/ exists id, reg_id reg n = Ok id /\ fst (nth k (site_list (sd_subs s)) (0, 0)) = id)) ->
    let mine k := k < length (sd_pos s) /\ (n = Blank \/ exists id, reg_id reg n = Ok id /\ fst (nth k (site_list (sd_subs s)) (0, 0)) = id) in
    exists i p, find_nearest dist reg s n = Ok i /\ mine i /\ nth_error (sd_pos s) i = Some p /\
      forall j q, mine j -> nth_error (sd_pos s) j = Some q -> (dist p <= dist q)%Q /\ (j < i -> ~ (dist q <= dist p)%Q).
  Proof.
    intros n ND (k & Hk & Hn) mine. destruct (name_eqb_spec n Blank) as [->|NB].
    - destruct (nearest_in Blank 0 (length (sd_pos s))) as (i & p & E & A & B & C); [reflexivity|lia|lia|].
      exists i, p. split; auto. split; [unfold mine; split; [lia|auto]|]. split; auto. intros j q (Hj & _) Eq. apply C; auto. lia.
    - destruct Hn as [?|(id & HI & HL)]; [contradiction|].
      destruct (block_of_id (sd_subs s) id ND) as (b & FB & FN & FE & FL); [exists k; split; [lia|auto]|].
      destruct (nearest_in n (it_sys b) (it_sys b + e_num (it_e b))) as (i & p & E & A & B & C).
      + unfold sublattice_range. destruct (name_eqb_spec n Blank); [contradiction|]. rewrite HI. cbn [obind]. rewrite FB. reflexivity.
      + lia.
      + lia.
      + exists i, p. split; auto. split; [split; [lia|right; exists id; split; auto; apply FL; lia]|]. split; auto.
        intros j q (Hj & [?|(id' & HI' & HL')]) Eq; [contradiction|]. apply C; auto. apply FL; [lia|]. congruence.
  Qed.

  Lemma nearest_unknown : forall n, n <> Blank -> ~ In n (map fst reg) -> find_nearest dist reg s n = Throw.
  Proof.
    intros n NB NI. unfold find_nearest, sublattice_range. destruct (name_eqb_spec n Blank); [contradiction|].
    apply (proj2 (reg_id_none reg n)) in NI. rewrite NI. reflexivity.
  Qed.
  Lemma nearest_absent : forall n id, n <> Blank -> reg_id reg n = Ok id -> ~ In id (alias_ids (sd_subs s)) -> find_nearest dist reg s n = Throw.
  Proof.
    intros n id NB HI NI. unfold find_nearest, sublattice_range. destruct (name_eqb_spec n Blank); [contradiction|]. rewrite HI. cbn [obind].
    destruct (find _ _) as [b|] eqn:F; [|reflexivity]. exfalso. apply find_some in F. destruct F as [F1 F2]. apply Nat.eqb_eq in F2.
    apply NI. rewrite <- F2. apply in_map. eapply iter_inside; eauto.
  Qed.
End Nearest.

(* ------------------------------------------------------------------ names of sites *)
Section Names.
  Variable R : scalar.
  Variable P : Type.
  Variable offset_ok : P -> bool.
  Variable order : list (family R) -> list (family R).
  Variable cs : list (lcall R P).
  Notation l := (calls offset_ok order cs).
  Variable subs : list (sublattice R P).
  Variable fams : list (family R).
  Hypothesis Hs : Permutation subs (l_subs l).
  Hypothesis Hf : Permutation fams (l_fams l).
  Variable uc : list (usite P).
  Hypothesis Huc : unit_cell subs fams = Ok uc.
  Variable reg hreg : list (option (name * mat R)).
  Hypothesis Hreg : site_registry subs = Ok reg.
  Hypothesis Hhreg : hopping_registry fams = Ok hreg.
  Hypothesis Hprim : forall s o, In s (l_subs l) -> In o (l_subs l) -> sb_uid o = sb_alias s -> primary o.
  Variable size : idx3.
  Hypothesis Hsize : positive_block size.
  Notation N := (num_block_sites size (length uc)).
  Variable s : sym.
  Variable v : list bool.
  Hypothesis Hv : length v = N.
  Variable pos : list P.
  Hypothesis Hpos : length pos = N.
  Variable dflt : P.
  Variable shift : idx3 -> P.

  Lemma built_names : forall base er, build_system dflt size uc s shift reg hreg pos v = Ok base ->
    forall i a sb, cell_of size i -> a < length uc -> flagged size v (i, a) = true -> In sb (l_subs l) -> uid_at uc a = Some (sb_uid sb) ->
      exists o, In o (l_subs l) /\ sb_uid o = sb_alias sb /\
        site_name (map entry_of reg ++ er) (hs_subs base) (number v (place size i a)) = sb_name o.
  Proof.
    intros base er EB i a sb Ci La Fl Hsb HU. pose proof (inv_calls R P offset_ok order cs) as I.
    assert (LH : length hreg = length (l_fams l)) by (rewrite (hreg_eq R P offset_ok order cs fams Hf hreg Hhreg); apply map_length).
    unfold build_system in EB. rewrite LH in EB. apply obind_ok in EB. destruct EB as ([[p d] h] & E & EB). apply obind_ok in EB. destruct EB as (bs & _ & EB).
    injection EB as <-. cbn [hs_subs fst snd].
    destruct (api_numbering R P offset_ok order cs subs fams Hs Hf uc Huc size Hsize v Hv pos dflt Hpos _ _ _ E) as (_ & _ & _ & A4 & _).
    destruct (nth_error uc a) as [u|] eqn:U; [|apply nth_error_None in U; lia].
    destruct (A4 i a u Ci U Fl) as [_ Q]. unfold site_name. change (site_list d) with (labels d). rewrite (nth_error_nth _ _ _ Q). cbn [fst].
    unfold uid_at in HU. rewrite U in HU. cbn in HU. injection HU as HU.
    rewrite (api_cell R P offset_ok order cs subs fams Hs Hf uc Huc) in U. apply (cell_sub R P l fams) in U.
    destruct U as (s1 & S1 & _ & _ & S4 & S2). assert (s1 = sb) by (apply (sub_uid_inj R P l I); auto; congruence). subst s1.
    destruct (li_alias _ _ _ I sb Hsb) as (o & Io & O1 & O2 & _). exists o. split; auto. split; auto.
    pose proof (site_registry_alias R P offset_ok order cs subs reg sb o Hs Hreg Hsb Io O1 (Hprim sb o Hsb Io O1)) as ER.
    rewrite S2. rewrite app_nth1 by (rewrite map_length; apply nth_error_Some; congruence).
    erewrite nth_error_nth; [|rewrite nth_error_map, ER; reflexivity]. reflexivity.
  Qed.
End Names.

(* ------------------------------------------------------------------ generators only append *)
Section Append.
  Variable R : scalar.
  Variable P : Type.
  Variable reg hreg : list (name * mat R).
  Lemma generators_append : forall gms s s', sd_valid s = [] -> Forall (fun g => requires_system g = true) gms ->
    ofold (apply_system reg hreg) gms s = Ok s' -> sd_valid s' = [] /\ exists ps, sd_pos s' = sd_pos s ++ (ps : list P).
  Proof.
    induction gms as [|g gms IH]; intros s s' HV HG E; cbn [ofold] in E.
    - injection E as <-. split; auto. exists []. rewrite app_nil_r. reflexivity.
    - inversion HG as [|? ? G1 G2]; subst. apply obind_ok in E. destruct E as (s1 & E1 & E2).
      assert (S1 : sd_valid s1 = [] /\ exists ps, sd_pos s1 = sd_pos s ++ ps).
      { destruct g as [| |n e mk|n e mk]; try discriminate; cbn [apply_system] in E1; unfold remove_invalid in E1; rewrite HV in E1; cbn [obind] in E1.
        - apply obind_ok in E1. destruct E1 as (ps & _ & E1). apply obind_ok in E1. destruct E1 as (id & _ & E1). injection E1 as <-. cbn. split; eauto.
        - apply obind_ok in E1. destruct E1 as (rc & _ & E1). apply obind_ok in E1. destruct E1 as (id & _ & E1). apply obind_ok in E1. destruct E1 as (h & _ & E1).
          injection E1 as <-. cbn. split; auto. exists []. rewrite app_nil_r. reflexivity. }
      destruct S1 as (V1 & ps & P1). destruct (IH s1 s' V1 G2 E2) as (V2 & qs & P2). split; auto. exists (ps ++ qs). rewrite P2, P1, app_assoc. reflexivity.
  Qed.
End Append.
