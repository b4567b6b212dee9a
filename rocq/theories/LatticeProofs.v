(* Invariant of every lattice reachable through the API. *)
From Verif Require Import Base Rle Blocks Foundation Scalar Lattice LatticeSpec.
From Coq Require Import Permutation.

Lemma name_eqb_spec : forall a b, reflect (a = b) (name_eqb a b).
Proof.
  destruct a, b; cbn; try (constructor; congruence).
  - destruct (Nat.eqb_spec n n0); constructor; congruence.
  - destruct (Nat.eqb_spec n n0); constructor; congruence.
Qed.

Lemma eqb3_spec : forall a b, reflect (a = b) (eqb3 a b).
Proof.
  intros [a1 a2 a3] [b1 b2 b3]. unfold eqb3. cbn [ix iy iz].
  destruct (Z.eqb_spec a1 b1), (Z.eqb_spec a2 b2), (Z.eqb_spec a3 b3); cbn; constructor; congruence.
Qed.

Lemma term_eqb_spec : forall a b, reflect (same_bond a b) (term_eqb a b).
Proof.
  intros [ra fa ta] [rb fb tb]. unfold term_eqb, same_bond, reversed. cbn [t_rel t_from t_to].
  destruct (eqb3_spec ra rb), (Nat.eqb_spec fa fb), (Nat.eqb_spec ta tb),
           (eqb3_spec ra (neg3 rb)), (Nat.eqb_spec fa tb), (Nat.eqb_spec ta fb); cbn;
  constructor; unfold neg3 in *; try (left; congruence); try (right; congruence); intros [H|H]; congruence.
Qed.

Lemma reversed_reversed : forall t, reversed (reversed t) = t.
Proof. intros [[x y z] f t]. unfold reversed. cbn. rewrite !Z.opp_involutive. reflexivity. Qed.

Lemma same_bond_sym : forall a b, same_bond a b -> same_bond b a.
Proof. intros a b [-> | ->]; [left; auto|right; rewrite reversed_reversed; auto]. Qed.

(* ------------------------------------------------------------ pairwise lists *)
Lemma FOP_perm : forall {A} (Q : A -> A -> Prop) l1 l2, (forall a b, Q a b -> Q b a) ->
  Permutation l1 l2 -> ForallOrdPairs Q l1 -> ForallOrdPairs Q l2.
Proof.
  intros A Q l1 l2 S H. induction H; intros F; auto.
  - inversion F; subst. constructor; auto. eapply Permutation_Forall; eauto.
  - inversion F as [|? ? F1 F2]; subst. inversion F2; subst. inversion F1; subst.
    constructor; [constructor; auto|]. constructor; auto.
Qed.

Lemma FOP_pairwise : forall {A} (Q : A -> A -> Prop) l, (forall a b, Q a b -> Q b a) ->
  ForallOrdPairs Q l -> pairwise Q l.
Proof.
  intros A Q l S F. induction F as [|x l F1 F2 IH]; intros i j a b Hij Ha Hb.
  - destruct i; discriminate.
  - rewrite Forall_forall in F1. destruct i, j; cbn [nth_error] in *; try congruence.
    + injection Ha as <-. apply F1. eapply nth_error_In; eauto.
    + injection Hb as <-. apply S. apply F1. eapply nth_error_In; eauto.
    + eapply IH; [|eauto|eauto]. congruence.
Qed.

Lemma NoDup_snoc : forall {A} (l : list A) x, NoDup l -> ~ In x l -> NoDup (l ++ [x]).
Proof.
  intros A l x H Hx. apply NoDup_app_intro; auto; [constructor; [intros []|constructor]|].
  intros y Hy [<-|[]]. auto.
Qed.

Lemma seq_S_snoc : forall n, seq 0 (S n) = seq 0 n ++ [n].
Proof. intros. replace (S n) with (n + 1) by lia. rewrite seq_app. reflexivity. Qed.

Section Inv.
  Variable R : scalar.
  Variable P : Type.
  Variable offset_ok : P -> bool.
  Variable order : list (family R) -> list (family R).

  Notation lattice := (lattice R P).
  Notation sublattice := (sublattice R P).
  Notation family := (family R).

  Definition hermitian (n : nat) (e : mat R) : Prop :=
    m_rows e = n /\ m_cols e = n /\ forall i j, i < n -> j < n -> m_at e i j = kconj (m_at e j i).

  Record lat_inv (l : lattice) : Prop := {
    li_uids : map sb_uid (l_subs l) = seq 0 (length (l_subs l));
    li_names : NoDup (map sb_name (l_subs l));
    li_blank : ~ In Blank (map sb_name (l_subs l));
    li_fids : map fm_id (l_fams l) = seq 0 (length (l_fams l));
    li_fnames : NoDup (map fm_name (l_fams l));
    li_fblank : ~ In Blank (map fm_name (l_fams l));
    li_sub : forall s, In s (l_subs l) -> 0 < m_rows (sb_energy s) /\ hermitian (m_rows (sb_energy s)) (sb_energy s);
    li_alias : forall s, In s (l_subs l) -> exists o, In o (l_subs l) /\ sb_uid o = sb_alias s /\
                 sb_energy o = sb_energy s /\ sb_uid o <= sb_uid s;
    li_fam : forall f, In f (l_fams l) -> 0 < m_rows (fm_energy f) /\ 0 < m_cols (fm_energy f);
    li_terms : forall f t, In f (l_fams l) -> In t (fm_terms f) -> exists a b,
                 In a (l_subs l) /\ In b (l_subs l) /\ sb_uid a = t_from t /\ sb_uid b = t_to t /\
                 m_rows (sb_energy a) = m_rows (fm_energy f) /\ m_cols (sb_energy b) = m_cols (fm_energy f) /\
                 ~ (t_from t = t_to t /\ t_rel t = zero3);
    li_bonds : ForallOrdPairs (fun a b => ~ same_bond a b) (all_terms l)
  }.

  Lemma find_sub_some : forall (l : lattice) n s, find_sub l n = Some s -> In s (l_subs l) /\ sb_name s = n.
  Proof.
    intros l n s H. unfold find_sub in H. apply find_some in H. destruct H as [H E].
    destruct (name_eqb_spec (sb_name s) n); [auto|discriminate].
  Qed.
  Lemma find_sub_none : forall (l : lattice) n, find_sub l n = None -> ~ In n (map sb_name (l_subs l)).
  Proof.
    intros l n H Hin. apply in_map_iff in Hin. destruct Hin as (s & <- & Hs).
    unfold find_sub in H. pose proof (find_none _ _ H s Hs) as E. cbn in E.
    destruct (name_eqb_spec (sb_name s) (sb_name s)); congruence.
  Qed.
  Lemma find_fam_some : forall (l : lattice) n f, find_fam l n = Some f -> In f (@l_fams R P l) /\ fm_name f = n.
  Proof.
    intros l n s H. unfold find_fam in H. apply find_some in H. destruct H as [H E].
    destruct (name_eqb_spec (fm_name s) n); [auto|discriminate].
  Qed.
  Lemma find_fam_none : forall (l : lattice) n, find_fam l n = None -> ~ In n (map fm_name (@l_fams R P l)).
  Proof.
    intros l n H Hin. apply in_map_iff in Hin. destruct Hin as (s & <- & Hs).
    unfold find_fam in H. pose proof (find_none _ _ H s Hs) as E. cbn in E.
    destruct (name_eqb_spec (fm_name s) (fm_name s)); congruence.
  Qed.

  Lemma make_uid_some : forall (l : lattice) n uid, make_uid l n = Some uid ->
    n <> Blank /\ ~ In n (map sb_name (@l_subs R P l)) /\ uid = length (l_subs l).
  Proof.
    intros l n uid H. unfold make_uid in H. destruct (name_eqb_spec n Blank); [discriminate|].
    destruct (find_sub l n) eqn:E; [discriminate|]. injection H as <-. split; [auto|]. split; [|auto].
    apply find_sub_none; auto.
  Qed.

  Lemma onsite_view : forall e : mat R, onsite_ok e = true ->
    0 < m_rows (hermitian_view e) /\ hermitian (m_rows (hermitian_view e)) (hermitian_view e).
  Proof.
    intros e H. unfold onsite_ok in H. rewrite !andb_true_iff in H. destruct H as (((H1 & H2) & H3) & _).
    apply Nat.eqb_eq in H1. apply negb_true_iff, Nat.eqb_neq in H2.
    cbn [hermitian_view m_rows]. split; [lia|]. split; [reflexivity|]. split; [symmetry; exact H1|].
    intros i j Hi Hj. cbn [hermitian_view m_at].
    destruct (Nat.leb_spec i j), (Nat.leb_spec j i); try lia.
    - assert (j = i) by lia. subst j. unfold diag_real in H3. rewrite forallb_forall in H3.
      apply (keqb_eq R). apply H3. apply in_seq. lia.
    - symmetry. apply kconj_conj.
    - reflexivity.
  Qed.

  Lemma inv_new : lat_inv new_lattice.
  Proof.
    constructor; cbn; try constructor; try (intros; contradiction); try tauto.
  Qed.

  Lemma inv_add_sub : forall (l : lattice) n p e uid alias, lat_inv l ->
    make_uid l n = Some uid -> 0 < m_rows e -> hermitian (m_rows e) e ->
    (alias = uid \/ exists o, In o (l_subs l) /\ sb_uid o = alias /\ sb_energy o = e) ->
    lat_inv (Lat (l_subs l ++ [Sub n p e uid alias]) (l_fams l) (l_offset l) (l_min l)).
  Proof.
    intros l n p e uid alias I Hu He Hh Ha. destruct (make_uid_some _ _ _ Hu) as (U1 & U2 & ->).
    destruct I. constructor; cbn [l_subs l_fams]; auto.
    - rewrite map_app, app_length, li_uids0. cbn. rewrite Nat.add_1_r. symmetry. apply seq_S_snoc.
    - rewrite map_app. apply NoDup_snoc; auto.
    - rewrite map_app, in_app_iff. cbn. intros [H|[H|[]]]; auto.
    - intros s Hs. apply in_app_iff in Hs. destruct Hs as [Hs|[<-|[]]]; auto.
    - intros s Hs. apply in_app_iff in Hs. destruct Hs as [Hs|[<-|[]]].
      + destruct (li_alias0 s Hs) as (o & O1 & O2). exists o. split; [apply in_app_iff; auto|auto].
      + destruct Ha as [->|(o & O1 & O2 & O3)].
        * eexists. split; [apply in_app_iff; right; left; reflexivity|]. cbn. auto.
        * exists o. split; [apply in_app_iff; auto|]. cbn. repeat split; auto.
          assert (Hin : In (sb_uid o) (map sb_uid (l_subs l))) by (apply in_map; auto).
          rewrite li_uids0 in Hin. apply in_seq in Hin. lia.
    - intros f t Hf Ht. destruct (li_terms0 f t Hf Ht) as (a & b & A & B & C).
      exists a, b. split; [apply in_app_iff; auto|]. split; [apply in_app_iff; auto|auto].
  Qed.

  Lemma inv_register : forall (l : lattice) n e l' b, lat_inv l -> register_hopping_energy n e l = (l', b) -> lat_inv l'.
  Proof.
    intros l n e l' b I H. unfold register_hopping_energy in H.
    destruct (name_eqb_spec n Blank); [injection H as <- _; auto|].
    destruct (hopping_ok e) eqn:HO; cbn [negb] in H; [|injection H as <- _; auto].
    destruct (find_fam l n) eqn:E; [injection H as <- _; auto|]. injection H as <- _.
    apply find_fam_none in E. unfold hopping_ok in HO. apply negb_true_iff, orb_false_iff in HO. destruct HO as [HO1 HO2].
    apply Nat.eqb_neq in HO1. apply Nat.eqb_neq in HO2.
    destruct I. constructor; cbn [l_subs l_fams]; auto.
    - rewrite map_app, app_length, li_fids0. cbn. rewrite Nat.add_1_r. symmetry. apply seq_S_snoc.
    - rewrite map_app. apply NoDup_snoc; auto.
    - rewrite map_app, in_app_iff. cbn. intros [H|[H|[]]]; auto.
    - intros f Hf. apply in_app_iff in Hf. destruct Hf as [Hf|[<-|[]]]; auto. cbn. lia.
    - intros f t Hf Ht. apply in_app_iff in Hf. destruct Hf as [Hf|[<-|[]]]; [eauto|contradiction].
    - unfold all_terms in *. cbn [l_fams]. rewrite flat_map_app. cbn. rewrite app_nil_r. auto.
  Qed.

  Lemma push_terms_none : forall n t (fams : list family), ~ In n (map fm_name fams) -> map (push_term n t) fams = fams.
  Proof.
    intros n t. induction fams as [|f fams IH]; intros H; [reflexivity|]. cbn [map] in *.
    rewrite IH by (intros X; apply H; right; auto). unfold push_term.
    destruct (name_eqb_spec (fm_name f) n); [exfalso; apply H; left; auto|reflexivity].
  Qed.

  Lemma push_terms_perm : forall n t (fams : list family), NoDup (map fm_name fams) -> In n (map fm_name fams) ->
    Permutation (t :: flat_map fm_terms fams) (flat_map fm_terms (map (push_term n t) fams)).
  Proof.
    intros n t. induction fams as [|f fams IH]; intros ND Hin; [contradiction|]. cbn [map] in ND. inversion ND as [|? ? N1 N2]; subst.
    cbn [map flat_map]. destruct (name_eqb_spec (fm_name f) n) as [E|E].
    - rewrite push_terms_none by congruence. unfold push_term. destruct (name_eqb_spec (fm_name f) n); [|congruence].
      cbn [fm_terms]. rewrite <- app_assoc. cbn [app]. apply Permutation_middle.
    - unfold push_term at 1. destruct (name_eqb_spec (fm_name f) n); [congruence|].
      eapply perm_trans; [apply Permutation_middle|]. apply Permutation_app_head. apply IH; auto.
      destruct Hin; [congruence|auto].
  Qed.

  Lemma push_term_names : forall n t (fams : list family), map fm_name (map (push_term n t) fams) = map fm_name fams.
  Proof. intros. rewrite map_map. apply map_ext. intros f. unfold push_term. destruct (name_eqb _ _); reflexivity. Qed.
  Lemma push_term_ids : forall n t (fams : list family), map fm_id (map (push_term n t) fams) = map fm_id fams.
  Proof. intros. rewrite map_map. apply map_ext. intros f. unfold push_term. destruct (name_eqb _ _); reflexivity. Qed.
  Lemma push_term_energy : forall n t (f : family), fm_energy (push_term n t f) = fm_energy f.
  Proof. intros. unfold push_term. destruct (name_eqb _ _); reflexivity. Qed.

  Lemma inv_add_hopping : forall (l : lattice) rel a b n l' r, lat_inv l -> add_hopping rel a b n l = (l', r) -> lat_inv l'.
  Proof.
    intros l rel a b n l' r I H. unfold add_hopping in H.
    destruct (name_eqb a b && eqb3 rel zero3) eqn:E0; [injection H as <- _; auto|].
    destruct (find_sub l a) as [sa|] eqn:Ea; [|injection H as <- _; auto].
    destruct (find_sub l b) as [sb|] eqn:Eb; [|injection H as <- _; auto].
    destruct (find_fam l n) as [f|] eqn:Ef; [|injection H as <- _; auto].
    destruct (negb (m_rows (sb_energy sa) =? m_rows (fm_energy f)) || negb (m_cols (sb_energy sb) =? m_cols (fm_energy f))) eqn:Em;
      [injection H as <- _; auto|].
    destruct (existsb (term_eqb (Term rel (sb_uid sa) (sb_uid sb))) (all_terms l)) eqn:Ex; [injection H as <- _; auto|].
    injection H as <- _. set (t := Term rel (sb_uid sa) (sb_uid sb)) in *.
    apply orb_false_iff in Em. destruct Em as [Em1 Em2].
    apply negb_false_iff, Nat.eqb_eq in Em1. apply negb_false_iff, Nat.eqb_eq in Em2.
    destruct (find_sub_some _ _ _ Ea) as [Ina Na]. destruct (find_sub_some _ _ _ Eb) as [Inb Nb].
    destruct (find_fam_some _ _ _ Ef) as [Inf Nf].
    pose proof I as I0. destruct I. constructor; cbn [l_subs l_fams]; auto.
    - rewrite push_term_ids, map_length. auto.
    - rewrite push_term_names. auto.
    - rewrite push_term_names. auto.
    - intros g Hg. apply in_map_iff in Hg. destruct Hg as (g0 & <- & Hg). rewrite push_term_energy. auto.
    - intros g u Hg Hu. apply in_map_iff in Hg. destruct Hg as (g0 & <- & Hg). rewrite push_term_energy.
      unfold push_term in Hu. destruct (name_eqb_spec (fm_name g0) n) as [Eg|Eg]; [|eauto].
      cbn [fm_terms] in Hu. apply in_app_iff in Hu. destruct Hu as [Hu|[<-|[]]]; [eauto|].
      assert (g0 = f).
      { clear - li_fnames0 Inf Hg Eg Nf. revert li_fnames0 Inf Hg. generalize (l_fams l) as L.
        induction L as [|x L IH]; intros ND I1 I2; [contradiction|]. cbn in ND. inversion ND; subst.
        destruct I1 as [->|I1], I2 as [->|I2]; auto.
        - exfalso. apply H1. rewrite <- Eg. apply in_map; auto.
        - exfalso. apply H1. rewrite Eg. apply in_map; auto. }
      subst g0. exists sa, sb. subst t. cbn [t_from t_to t_rel]. repeat (split; [now auto|]).
      intros [Q1 Q2]. apply andb_false_iff in E0. destruct E0 as [E0|E0].
      + assert (Hs : sa = sb).
        { assert (ND : NoDup (map sb_uid (l_subs l))) by (rewrite li_uids0; apply seq_NoDup).
          clear - ND Ina Inb Q1. revert ND Ina Inb. generalize (l_subs l) as L.
          induction L as [|x L IH]; intros ND I1 I2; [contradiction|]. cbn in ND. inversion ND; subst.
          destruct I1 as [->|I1], I2 as [->|I2]; auto.
          - exfalso. apply H1. rewrite Q1. apply in_map; auto.
          - exfalso. apply H1. rewrite <- Q1. apply in_map; auto. }
        subst sb. destruct (name_eqb_spec a b); [discriminate|]. congruence.
      + destruct (eqb3_spec rel zero3); [discriminate|auto].
    - unfold all_terms. cbn [l_fams]. eapply FOP_perm.
      + intros x y Hxy Hyx. apply Hxy. apply same_bond_sym; auto.
      + apply push_terms_perm; auto. rewrite <- Nf. apply in_map; auto.
      + constructor; [|exact li_bonds0]. apply Forall_forall. intros x Hx Hs.
        assert (existsb (term_eqb t) (all_terms l) = true); [|congruence].
        apply existsb_exists. exists x. split; [auto|]. destruct (term_eqb_spec t x); [auto|contradiction].
  Qed.

  Lemma inv_call : forall c l, lat_inv l -> lat_inv (fst (call offset_ok order c l)).
  Proof.
    intros c l I. destruct c; cbn [call].
    - unfold add_sublattice. destruct (onsite_ok e) eqn:E; cbn [negb]; [|exact I].
      destruct (make_uid l n) eqn:U; [|exact I]. destruct (onsite_view e E). apply inv_add_sub; auto.
    - unfold add_alias. destruct (find_sub l orig) as [o|] eqn:O; [|exact I].
      destruct (make_uid l n) eqn:U; [|exact I]. apply find_sub_some in O. destruct O as [O _].
      destruct (li_sub l I o O). apply inv_add_sub; auto. right. exists o. auto.
    - destruct (register_hopping_energy n e l) eqn:E. cbn [fst]. eapply inv_register; eauto.
    - destruct (add_hopping rel from to fam l) eqn:E. cbn [fst]. eapply inv_add_hopping; eauto.
    - unfold add_hopping_energy. destruct (find _ _) as [f|].
      + destruct (add_hopping rel from to (fm_name f) l) eqn:E. cbn [fst]. eapply inv_add_hopping; eauto.
      + destruct (register_hopping_energy _ e l) as [l' [|]] eqn:E.
        * destruct (add_hopping rel from to _ l') eqn:E2. cbn [fst].
          eapply inv_add_hopping; [|eauto]. eapply inv_register; eauto.
        * cbn. eapply inv_register; eauto.
    - unfold set_offset. destruct (offset_ok p); cbn; [|exact I]. destruct I. constructor; auto.
    - destruct I. constructor; auto.
  Qed.

  Lemma inv_calls_from : forall cs l, lat_inv l -> lat_inv (fold_left (fun l c => fst (call offset_ok order c l)) cs l).
  Proof. induction cs as [|c cs IH]; intros l I; [exact I|]. cbn [fold_left]. apply IH. apply inv_call. auto. Qed.

  Lemma inv_calls : forall cs, lat_inv (calls offset_ok order cs).
  Proof. intros. apply inv_calls_from. apply inv_new. Qed.
End Inv.
