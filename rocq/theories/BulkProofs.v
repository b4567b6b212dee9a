(* Sums over stored hoppings and sums over the terms of a lattice. *)
From Verif Require Import Base Rle Blocks Scalar Foundation FoundationSpec Lattice LatticeSpec LatticeProofs Hamiltonian HamiltonianSpec HamProofs HamHermitian BulkSpec.
From Coq Require Import Permutation.

Lemma fop_split : forall {A} (Q : A -> A -> Prop) l x, ForallOrdPairs Q l -> In x l ->
  exists l1 l2, l = l1 ++ x :: l2 /\ forall y, In y (l1 ++ l2) -> Q x y \/ Q y x.
Proof.
  intros A Q l x H. induction H as [|a l Ha Hl IH]; intros Hx; [destruct Hx|]. destruct Hx as [->|Hx].
  - exists [], l. split; [reflexivity|]. intros y Hy. left. rewrite Forall_forall in Ha. apply Ha. exact Hy.
  - destruct (IH Hx) as (l1 & l2 & E & F). exists (a :: l1), l2. split; [cbn; congruence|]. intros y [->|Hy].
    + right. rewrite Forall_forall in Ha. apply Ha. exact Hx.
    + apply F; auto.
Qed.

Lemma eqb3_eq : forall i j, eqb3 i j = true <-> i = j.
Proof.
  intros [a b c] [x y z]. unfold eqb3. cbn [ix iy iz]. rewrite !andb_true_iff, !Z.eqb_eq. split; [intros [[-> ->] ->]; reflexivity|].
  intros E. injection E as -> -> ->. auto.
Qed.

Lemma leads_to_iff : forall t x y, leads_to t x y = true <-> snd x = t_from t /\ snd y = t_to t /\ fst y = shifted_cell (fst x) (t_rel t).
Proof. intros t x y. unfold leads_to. rewrite !andb_true_iff, !Nat.eqb_eq, eqb3_eq. tauto. Qed.

Section BP.
  Variable R : scalar.
  Add Ring Rbp : (k_ring R).
  Variable P : Type.
  Variable l : lattice R P.
  Hypothesis I : lat_inv R P l.
  Variable nt : ntype R.

  Definition pairs (fams : list (family R)) : list (family R * term) := flat_map (fun f => map (fun t => (f, t)) (fm_terms f)) fams.

  Lemma hops_to_pairs : forall fams x p y q, hops_to nt fams x p y q
    = ksum (fun ft => if leads_to (snd ft) x y then nt_cast nt (m_at (fm_energy (fst ft)) p q) else k0) (pairs fams).
  Proof. intros. unfold pairs. rewrite ksum_flat_map. apply ksum_ext. intros f _. rewrite ksum_map. reflexivity. Qed.

  Lemma pairs_fop : ForallOrdPairs (fun a b => ~ same_bond (snd a) (snd b)) (pairs (l_fams l)).
  Proof.
    pose proof (li_bonds _ _ _ I) as F.
    assert (E : all_terms l = map snd (pairs (l_fams l))).
    { unfold all_terms, pairs. rewrite map_flat_map. apply flat_map_ext. intros f. rewrite map_map. cbn [snd]. symmetry. apply map_id. }
    rewrite E in F. clear -F. induction (pairs (l_fams l)) as [|a L IH]; [constructor|]. cbn [map] in F. inversion F as [|? ? F1 F2]; subst. constructor; auto.
    apply Forall_forall. intros b Hb. rewrite Forall_forall in F1. apply F1. apply in_map. exact Hb.
  Qed.

  Lemma leads_to_same : forall t t' x y, leads_to t x y = true -> leads_to t' x y = true -> t = t'.
  Proof.
    intros [r a b] [r' a' b'] x y H H'. apply leads_to_iff in H, H'. cbn [t_from t_to t_rel] in *. destruct H as (H1 & H2 & H3), H' as (H1' & H2' & H3').
    f_equal; try congruence. rewrite H3 in H3'. destruct (fst x) as [u v w], r as [r1 r2 r3], r' as [s1 s2 s3]. unfold shifted_cell in H3'. cbn in H3'. injection H3' as E1 E2 E3. f_equal; lia.
  Qed.

  Lemma hops_to_one : forall f t x p y q, In f (l_fams l) -> In t (fm_terms f) -> leads_to t x y = true ->
    hops_to nt (l_fams l) x p y q = nt_cast nt (m_at (fm_energy f) p q).
  Proof.
    intros f t x p y q Hf Ht HL. rewrite hops_to_pairs.
    assert (HI : In (f, t) (pairs (l_fams l))) by (unfold pairs; apply in_flat_map; exists f; split; auto; apply in_map; auto).
    destruct (fop_split _ _ _ pairs_fop HI) as (l1 & l2 & E & F). rewrite E, ksum_app, ksum_cons. cbn [fst snd]. rewrite HL.
    assert (Z : forall y0, In y0 (l1 ++ l2) -> (if leads_to (snd y0) x y then nt_cast nt (m_at (fm_energy (fst y0)) p q) else k0) = k0).
    { intros z Hz. destruct (leads_to (snd z) x y) eqn:EZ; [|reflexivity]. exfalso. pose proof (leads_to_same _ _ _ _ HL EZ) as ET.
      destruct (F z Hz) as [G|G]; apply G; left; cbn [snd]; congruence. }
    rewrite !ksum_0; [ring| |]; intros z Hz; apply Z; apply in_app_iff; auto.
  Qed.

  Lemma hops_to_none : forall x p y q, (forall f t, In f (l_fams l) -> In t (fm_terms f) -> leads_to t x y = false) ->
    hops_to nt (l_fams l) x p y q = k0.
  Proof. intros x p y q H. unfold hops_to. apply ksum_0. intros f Hf. apply ksum_0. intros t Ht. rewrite (H f t); auto. Qed.

  Lemma leads_dec : forall x y, (exists f t, In f (l_fams l) /\ In t (fm_terms f) /\ leads_to t x y = true) \/
    (forall f t, In f (l_fams l) -> In t (fm_terms f) -> leads_to t x y = false).
  Proof.
    intros x y. destruct (existsb (fun ft => leads_to (snd ft) x y) (pairs (l_fams l))) eqn:E.
    - left. apply existsb_exists in E. destruct E as ([f t] & H1 & H2). unfold pairs in H1. apply in_flat_map in H1. destruct H1 as (f' & Hf & H1).
      apply in_map_iff in H1. destruct H1 as (t' & E & Ht). injection E as -> ->. exists f, t. auto.
    - right. intros f t Hf Ht. destruct (leads_to t x y) eqn:EL; [|reflexivity]. exfalso.
      assert (X : existsb (fun ft => leads_to (snd ft) x y) (pairs (l_fams l)) = true); [|congruence].
      apply existsb_exists. exists (f, t). split; [|exact EL]. unfold pairs. apply in_flat_map. exists f. split; auto. apply in_map; auto.
  Qed.

  Lemma no_return : forall f t f' t' x y, In f (l_fams l) -> In t (fm_terms f) -> In f' (l_fams l) -> In t' (fm_terms f') ->
    leads_to t x y = true -> leads_to t' y x = true -> False.
  Proof.
    intros f t f' t' x y Hf Ht Hf' Ht' H H'.
    assert (R1 : t = reversed t').
    { apply leads_to_iff in H, H'. destruct t as [r a b], t' as [r' a' b'], x as [[x1 x2 x3] u], y as [[y1 y2 y3] v]. unfold reversed, shifted_cell in *. cbn [t_from t_to t_rel ix iy iz fst snd] in *.
      destruct H as (H1 & H2 & H3), H' as (H1' & H2' & H3'). injection H3 as E1 E2 E3. injection H3' as E1' E2' E3'.
      destruct r as [r1 r2 r3], r' as [s1 s2 s3]. cbn [ix iy iz] in *. f_equal; try congruence. f_equal; lia. }
    assert (HI : In (f, t) (pairs (l_fams l))) by (unfold pairs; apply in_flat_map; exists f; split; auto; apply in_map; auto).
    assert (HI' : In (f', t') (pairs (l_fams l))) by (unfold pairs; apply in_flat_map; exists f'; split; auto; apply in_map; auto).
    destruct (fop_split _ _ _ pairs_fop HI) as (l1 & l2 & E & F). rewrite E in HI'. apply in_app_iff in HI'. destruct HI' as [HI'|[HI'|HI']].
    - destruct (F (f', t')) as [G|G]; [apply in_app_iff; auto| |]; apply G; right; cbn [snd]; [exact R1|].
      rewrite R1. destruct t' as [[r1 r2 r3] a b]. unfold reversed. cbn. rewrite !Z.opp_involutive. reflexivity.
    - injection HI' as -> ->. destruct (li_terms _ _ _ I f' t' Hf' Ht') as (_ & _ & _ & _ & _ & _ & _ & _ & NS). apply NS.
      apply leads_to_iff in H, H'. destruct t' as [[r1 r2 r3] a b]. unfold reversed in R1. cbn in R1. injection R1 as E1 E2 E3 E4 E5. cbn [t_from t_to t_rel]. split; [congruence|].
      unfold zero3. f_equal; lia.
    - destruct (F (f', t')) as [G|G]; [apply in_app_iff; auto| |]; apply G; right; cbn [snd]; [exact R1|].
      rewrite R1. destruct t' as [[r1 r2 r3] a b]. unfold reversed. cbn. rewrite !Z.opp_involutive. reflexivity.
  Qed.

  (** A sum over a duplicate-free table, restricted to one pair of sites. *)
  Lemma table_one : forall (tbl : list (nat * (nat * nat))) (M : nat -> R) s t f, NoDup (map snd tbl) -> In (f, (s, t)) tbl ->
    ksum (fun fc => if (fst (snd fc) =? s) && (snd (snd fc) =? t) then M (fst fc) else k0) tbl = M f.
  Proof.
    intros tbl M s t f ND HI. rewrite (ksum_unique R _ tbl (f, (s, t))).
    - cbn [fst snd]. rewrite !Nat.eqb_refl. reflexivity.
    - eapply NoDup_map_inv; eauto.
    - exact HI.
    - intros [f' [s' t']] Hy Ne. cbn [fst snd]. destruct (Nat.eqb_spec s' s) as [->|]; [|reflexivity]. destruct (Nat.eqb_spec t' t) as [->|]; [|reflexivity].
      exfalso. apply Ne. clear -ND HI Hy. induction tbl as [|z tbl IH]; [destruct HI|]. cbn [map] in ND. inversion ND as [|? ? N1 N2]; subst.
      destruct HI as [->|HI], Hy as [E|Hy].
      + exact (eq_sym E).
      + exfalso. apply N1. cbn [snd]. apply (in_map snd) in Hy. exact Hy.
      + exfalso. subst z. apply N1. cbn [snd]. apply (in_map snd) in HI. exact HI.
      + auto.
  Qed.
  Lemma table_none : forall (tbl : list (nat * (nat * nat))) (M : nat -> R) s t, (forall f, ~ In (f, (s, t)) tbl) ->
    ksum (fun fc => if (fst (snd fc) =? s) && (snd (snd fc) =? t) then M (fst fc) else k0) tbl = k0.
  Proof.
    intros tbl M s t H. apply ksum_0. intros [f [s' t']] Hy. cbn [fst snd]. destruct (Nat.eqb_spec s' s) as [->|]; [|reflexivity]. destruct (Nat.eqb_spec t' t) as [->|]; [|reflexivity].
    exfalso. apply (H f). exact Hy.
  Qed.

  (** Tables of forward terms. *)
  Lemma table_hops_to : forall (tbl : list (nat * (nat * nat))) (M : nat -> R) s t x y p q, NoDup (map snd tbl) ->
    (forall f, In (f, (s, t)) tbl <-> exists fam tm, In fam (l_fams l) /\ fm_id fam = f /\ In tm (fm_terms fam) /\ leads_to tm x y = true) ->
    (forall fam, In fam (l_fams l) -> M (fm_id fam) = nt_cast nt (m_at (fm_energy fam) p q)) ->
    ksum (fun fc => if (fst (snd fc) =? s) && (snd (snd fc) =? t) then M (fst fc) else k0) tbl = hops_to nt (l_fams l) x p y q.
  Proof.
    intros tbl M s t x y p q ND HT HM. destruct (leads_dec x y) as [(f & tm & Hf & Ht & HL)|NO].
    - rewrite (table_one tbl M s t (fm_id f) ND) by (apply HT; exists f, tm; auto). rewrite HM by auto. symmetry. eapply hops_to_one; eauto.
    - rewrite table_none; [symmetry; apply hops_to_none; auto|]. intros f HI. apply HT in HI. destruct HI as (fam & tm & Hf & _ & Ht & HL). rewrite (NO fam tm) in HL; auto. discriminate.
  Qed.

  (** Tables of terms in both directions, all stored with the energy of the forward direction. *)
  Hypothesis NTok : nt_ok nt.
  Lemma table_bulk : forall (tbl : list (nat * (nat * nat))) (M : nat -> R) s t x y p q, NoDup (map snd tbl) ->
    (forall f, In (f, (s, t)) tbl <-> exists fam tm, In fam (l_fams l) /\ fm_id fam = f /\ In tm (fm_terms fam) /\ (leads_to tm x y = true \/ leads_to tm y x = true)) ->
    (forall fam, In fam (l_fams l) -> M (fm_id fam) = nt_cast nt (m_at (fm_energy fam) p q)) ->
    (forall fam tm, In fam (l_fams l) -> In tm (fm_terms fam) -> leads_to tm y x = true ->
       nt_cast nt (m_at (fm_energy fam) p q) = nt_conj nt (nt_cast nt (m_at (fm_energy fam) q p))) ->
    ksum (fun fc => if (fst (snd fc) =? s) && (snd (snd fc) =? t) then M (fst fc) else k0) tbl = bulk nt (l_fams l) x p y q.
  Proof.
    intros tbl M s t x y p q ND HT HM HS. destruct NTok as (_ & N0 & _). unfold bulk.
    destruct (leads_dec x y) as [(f & tm & Hf & Ht & HL)|NO].
    - rewrite (table_one tbl M s t (fm_id f) ND) by (apply HT; exists f, tm; auto). rewrite HM by auto.
      rewrite (hops_to_one f tm) by auto. rewrite (hops_to_none y q x p), N0; [ring|].
      intros f' t' Hf' Ht'. destruct (leads_to t' y x) eqn:E; [|reflexivity]. exfalso. exact (no_return f tm f' t' x y Hf Ht Hf' Ht' HL E).
    - rewrite (hops_to_none x p y q) by auto. destruct (leads_dec y x) as [(f & tm & Hf & Ht & HL)|NO'].
      + rewrite (table_one tbl M s t (fm_id f) ND) by (apply HT; exists f, tm; auto). rewrite HM, (HS f tm) by auto.
        rewrite (hops_to_one f tm) by auto. ring.
      + rewrite (hops_to_none y q x p), N0 by auto. rewrite table_none; [ring|]. intros f HI. apply HT in HI.
        destruct HI as (fam & tm & Hf & _ & Ht & [HL|HL]); [rewrite (NO fam tm) in HL by auto; discriminate|rewrite (NO' fam tm) in HL by auto; discriminate].
  Qed.
End BP.
