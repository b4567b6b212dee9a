(* The lead structure in terms of the contact sites (C42) and of the bonds between them (C35). *)
From Verif Require Import Base Rle RleProofs Blocks BlocksProofs TablesSpec Foundation Scalar Lattice LatticeSpec IndexProofs PositionProofs DanglingGraph DanglingProofs FinalProofs FoundationSpec FoundationFacts PopulateFacts BoundaryProofs Leads LeadsSpec LeadRows LeadFill LeadAttach LeadBuild.
From Coq Require Import Permutation.

Lemma junction_sites_ok : forall (g : nat -> site) jv n, length jv = n ->
  junction_sites jv (map g (seq 0 n)) = Ok (map g (filter (fun m => nth m jv false) (seq 0 n))).
Proof.
  intros g jv n Hl. unfold junction_sites, numbered. rewrite map_length, seq_length, combine_seq_map.
  assert (G : forall len a acc, a + len <= n ->
    ofold (fun acc (ns : nat * site) => obind (aget jv (fst ns)) (fun b => Ok (if b then acc ++ [snd ns] else acc))) (map (fun m => (m, g m)) (seq a len)) acc
    = Ok (acc ++ map g (filter (fun m => nth m jv false) (seq a len)))).
  { induction len as [|len IH]; intros a acc Ha; cbn [seq map ofold filter]; [rewrite app_nil_r; reflexivity|].
    cbn [fst snd]. rewrite (aget_ok jv a false) by lia. cbn [obind]. rewrite IH by lia. f_equal.
    destruct (nth a jv false); [cbn [map]; rewrite <- app_assoc; reflexivity|reflexivity]. }
  apply G. lia.
Qed.

Section Struct.
  Context {P : Type}.
  Variable size lower : idx3.
  Variable uc : list (usite P).
  Variable nfam : nat.
  Hypothesis Hsize : positive_block size.
  Hypothesis Huc : uc_ok uc.
  Hypothesis Hfam : forall u h, In u uc -> In h (u_hops u) -> h_fam h < nfam.
  Variable norb_of : nat -> nat.
  Hypothesis Hnorb : forall u, In u uc -> u_norb u = norb_of (u_alias u).
  Hypothesis Hcontig : forall a b c ua ub uc', a <= b -> b <= c ->
    nth_error uc a = Some ua -> nth_error uc b = Some ub -> nth_error uc c = Some uc' ->
    u_alias ua = u_alias uc' -> u_alias ub = u_alias ua.
  Hypothesis Hsorted : forall a b ua ub, a <= b -> nth_error uc a = Some ua -> nth_error uc b = Some ub -> u_norb ua <= u_norb ub.
  Notation N := (num_block_sites size (length uc)).
  Variable fpos : list P.
  Hypothesis Hpos : length fpos = N.
  Variable padd : P -> P -> P.
  Variable dflt shift : P.
  Variable l : lead P.
  Hypothesis Haxis : lead_axis l < 3.
  Hypothesis Hover : overlaps size lower l.
  Variable inside : P -> bool.
  Hypothesis Hin : forall ps, lead_contains l ps = map inside ps.
  Variable valid : list bool.
  Hypothesis Hvalid : length valid = N.

  Notation e := (unit3 (lead_axis l) (lead_sign l)).
  Notation at_place c := (place size (fst c) (snd c)).

  Lemma Hlen : forall ps, length (lead_contains l ps) = length ps.
  Proof. intros ps. rewrite Hin. apply map_length. Qed.

  (** A start and a cross-section exist. *)
  Definition has_contacts : Prop := exists i a, contact size lower uc fpos l inside valid i a.
  Hypothesis Hlive : forall i a, contact size lower uc fpos l inside valid i a -> flagged size valid (i, a) = true.

  Definition bonds_between (all : bool) (T : idx3) (cs : list (idx3 * nat)) (f p q : nat) : Prop :=
    exists i a u h, nth_error cs p = Some (i, a) /\ nth_error uc a = Some u /\ In h (u_hops u) /\ h_fam h = f /\
      (all = true \/ h_conj h = false) /\ nth_error cs q = Some (shifted_cell (shifted_cell i T) (h_rel h), h_to h).

  Theorem structure_spec : has_contacts -> forall fi, finalized_indices size uc nfam valid = Ok fi ->
    exists cs s, make_structure size lower uc fpos padd dflt nfam (fst (fst fi)) shift l valid = Ok s /\
    NoDup cs /\ (forall i a, In (i, a) cs <-> contact size lower uc fpos l inside valid i a) /\
    lt_indices s = map (fun c => Z.of_nat (number valid (at_place c))) cs /\
    (forall j k c c', j < k -> nth_error cs j = Some c -> nth_error cs k = Some c' -> at_place c < at_place c') /\
    lt_pos s = map (fun c => padd (nth (at_place c) fpos dflt) shift) cs /\
    rle_verify (lt_subs s) (length cs) = true /\
    (forall j i a u, nth_error cs j = Some (i, a) -> nth_error uc a = Some u -> nth_error (labels (lt_subs s)) j = Some (u_alias u, u_norb u)) /\
    length (labels (lt_subs s)) = length cs /\
    Forall (fun e => exists a u, nth_error uc a = Some u /\ e_id e = u_alias u /\ e_norb e = u_norb u) (lt_subs s) /\
    length (hb_blocks (lt_hops s)) = nfam /\ length (hb_blocks (lt_bound s)) = nfam /\
    (forall f p q, f < nfam -> In (p, q) (nth f (hb_blocks (lt_hops s)) []) <-> bonds_between false zero3 cs f p q) /\
    (forall f p q, f < nfam -> In (p, q) (nth f (hb_blocks (lt_bound s)) []) <-> bonds_between true e cs f p q) /\
    (forall f, f < nfam -> NoDup (nth f (hb_blocks (lt_hops s)) []) /\ NoDup (nth f (hb_blocks (lt_bound s)) [])) /\
    (forall f f' pq, f < nfam -> f' < nfam -> In pq (nth f (hb_blocks (lt_hops s)) []) -> In pq (nth f' (hb_blocks (lt_hops s)) []) -> f = f') /\
    (forall f f' pq, f < nfam -> f' < nfam -> In pq (nth f (hb_blocks (lt_bound s)) []) -> In pq (nth f' (hb_blocks (lt_bound s)) []) -> f = f').
  Proof.
    intros (i0 & a0 & C0) fi Hfi.
    destruct (finalized_ok size uc nfam Hsize Hfam valid) as (inds & counts & Efi & Lf & _ & Ff & _); [rewrite nbs_eq by auto; exact Hvalid|].
    rewrite Efi in Hfi. injection Hfi as <-. cbn [fst snd].
    rewrite nbs_eq in Lf, Ff by auto.
    assert (Ff' : forall i, i < N -> nth i inds 0%Z = if nth i valid false then Z.of_nat (number valid i) else (-1)%Z).
    { intros i Hi. rewrite Ff by auto. rewrite number_rank by lia. reflexivity. }
    destruct (junction_ok size lower uc fpos l Hsize Haxis Hpos Hover) as (ps & Eps & Lps & J).
    set (jv := lead_contains l ps) in *. set (L := row_len size lower (length uc) l) in *.
    assert (Ljv : length jv = L) by (unfold jv; rewrite Hlen; exact Lps).
    destruct C0 as (C1 & C2 & C3 & d0 & C4 & C5).
    pose proof (starts_find size lower uc fpos l Hsize Haxis Hpos valid d0) as SF. rewrite SF in C4. destruct C4 as (d & Fd & ->). clear SF.
    assert (Hd : d < deep size l).
    { pose proof (find_seq (row_has size lower uc l valid) (deep size l) 0) as FS. rewrite Fd in FS. lia. }
    (* the cross-section in terms of the slice *)
    set (cs := map (fun m => (cell_at size lower l d m, sub_at size lower l m)) (filter (fun m => nth m jv false) (seq 0 L))).
    assert (INC : forall i a, In (i, a) cs <-> contact size lower uc fpos l inside valid i a).
    { intros i a. unfold cs. rewrite in_map_iff. split.
      - intros (m & E & Hm). injection E as <- <-. apply filter_In in Hm. destruct Hm as [Hm Jm]. apply in_seq in Hm.
        destruct (cell_at_of size lower uc fpos l Hsize Haxis Hpos d m) as (K1 & K2 & K3 & K4); auto; [lia|].
        split; [exact K1|]. split; [exact K2|]. split; [apply (mouth_at size lower uc fpos l Hsize Haxis Hpos Hover inside Hin ps); auto; lia|].
        exists (Z.of_nat d). split; [apply (starts_find size lower uc fpos l Hsize Haxis Hpos); eauto|exact K4].
      - intros (K1 & K2 & K3 & d' & K4 & K5).
        apply (starts_find size lower uc fpos l Hsize Haxis Hpos) in K4. destruct K4 as (d1 & F1 & ->). assert (d1 = d) by congruence. subst d1.
        destruct (cell_at_onto size lower uc fpos l Hsize Haxis Hpos i a K1 K2) as (d2 & m & D2 & Hm & E1 & E2 & E3); [apply K3|].
        assert (d2 = d) by lia. subst d2. exists m. split; [rewrite E1, E2; reflexivity|].
        apply filter_In. split; [apply in_seq; fold L in Hm; lia|].
        apply (mouth_at size lower uc fpos l Hsize Haxis Hpos Hover inside Hin ps d m); auto. rewrite E1, E2. exact K3. }
    assert (EX : existsb (fun b => b) jv = true).
    { destruct (cell_at_onto size lower uc fpos l Hsize Haxis Hpos i0 a0 C1 C2) as (d2 & m & D2 & Hm & E1 & E2 & E3); [apply C3|].
      apply existsb_nth_true. exists m. rewrite Ljv. split; [exact Hm|].
      apply (mouth_at size lower uc fpos l Hsize Haxis Hpos Hover inside Hin ps d2 m); auto. rewrite E1, E2. exact C3. }
    specialize (J valid Hvalid). rewrite Fd, EX in J.
    unfold make_structure. rewrite J. cbn [obind fst snd].
    assert (RS : slice_sites size (length uc) (sl_set (lead_axis l) (slice_one (at_depth size l d)) (shape_slice size lower l)) = map (lsite size lower l d) (seq 0 L)).
    { apply (row_sites size lower (length uc) l Haxis). apply (at_depth_range size uc fpos l Haxis Hpos d). exact Hd. }
    rewrite RS, junction_sites_ok by exact Ljv. cbn [obind].
    set (ss := map (lsite size lower l d) (filter (fun m => nth m jv false) (seq 0 L))).
    assert (GOOD : forall m, m < L -> s_idx (lsite size lower l d m) = cell_at size lower l d m /\
              s_sub (lsite size lower l d m) = Z.of_nat (sub_at size lower l m) /\
              s_flat (lsite size lower l d m) = Z.of_nat (place size (cell_at size lower l d m) (sub_at size lower l m))).
    { intros m Hm. destruct (cell_at_of size lower uc fpos l Hsize Haxis Hpos d m Hd Hm) as (K1 & K2 & _).
      destruct (row_flat size lower (length uc) l Hsize Haxis (at_depth size l d) m) as [R1 _]; [apply (at_depth_range size uc fpos l Haxis Hpos); auto|exact Hm|].
      split; [reflexivity|]. split; [|exact R1]. unfold lsite, row_site, sub_at. cbn [mk_site s_sub].
      destruct (col_in size lower (length uc) l Haxis m Hm) as [_ B]. rewrite Z2Nat.id by lia. reflexivity. }
    assert (FL : forall m, In m (filter (fun m => nth m jv false) (seq 0 L)) -> m < L).
    { intros m Hm. apply filter_In in Hm. destruct Hm as [Hm _]. apply in_seq in Hm. lia. }
    assert (SS : forall j s, nth_error ss j = Some s -> exists m, m < L /\ nth_error cs j = Some (cell_at size lower l d m, sub_at size lower l m) /\ s = lsite size lower l d m).
    { intros j s Hs. unfold ss, cs in *. rewrite nth_error_map in *. destruct (nth_error (filter _ (seq 0 L)) j) as [m|] eqn:Em; [|discriminate].
      cbn in Hs. injection Hs as <-. exists m. split; [apply FL; eapply nth_error_In; eauto|]. split; reflexivity. }
    assert (EQ : forall s, fl s = Z.to_nat (s_flat s)) by reflexivity.
    assert (NS : forall j i a, nth_site ss j i a <-> nth_error cs j = Some (i, a)).
    { intros j i a. unfold nth_site. split.
      - intros (s & Hs & E1 & E2). destruct (SS j s Hs) as (m & Hm & Ec & ->). destruct (GOOD m Hm) as (G1 & G2 & _). rewrite Ec. repeat f_equal; [congruence|lia].
      - intros Hc. unfold cs in Hc. rewrite nth_error_map in Hc. destruct (nth_error (filter _ (seq 0 L)) j) as [m|] eqn:Em; [|discriminate].
        cbn in Hc. injection Hc as <- <-. assert (Hm : m < L) by (apply FL; eapply nth_error_In; eauto). destruct (GOOD m Hm) as (G1 & G2 & _).
        exists (lsite size lower l d m). unfold ss. rewrite nth_error_map, Em. auto. }
    assert (Hgood : forall s, In s ss -> good_site size uc s).
    { intros s Hs. apply In_nth_error in Hs. destruct Hs as (j & Hj). destruct (SS j s Hj) as (m & Hm & _ & ->).
      destruct (GOOD m Hm) as (G1 & G2 & G3). destruct (cell_at_of size lower uc fpos l Hsize Haxis Hpos d m Hd Hm) as (K1 & K2 & _).
      exists (cell_at size lower l d m), (sub_at size lower l m). auto. }
    assert (FLC : forall m, m < L -> fl (lsite size lower l d m) = place size (cell_at size lower l d m) (sub_at size lower l m)).
    { intros m Hm. rewrite EQ. destruct (GOOD m Hm) as (_ & _ & ->). apply Nat2Z.id. }
    assert (Hl : forall s, In s ss -> nth (fl s) valid false = true).
    { intros s Hs. apply In_nth_error in Hs. destruct Hs as (j & Hj). destruct (SS j s Hj) as (m & Hm & Ec & ->).
      rewrite FLC by auto. apply nth_error_In in Ec. apply INC in Ec. apply Hlive in Ec. exact Ec. }
    assert (INCR : forall j k c c', j < k -> nth_error cs j = Some c -> nth_error cs k = Some c' -> at_place c < at_place c').
    { assert (SI : forall m m', m < m' -> m' < L -> (s_flat (lsite size lower l d m) < s_flat (lsite size lower l d m'))%Z).
      { intros m m' H1 H2. pose proof (row_incr size lower (length uc) l Haxis (at_depth size l d) (at_depth_range size uc fpos l Haxis Hpos d Hd)) as SI.
        unfold row in SI. rewrite RS in SI. rewrite map_map in SI.
        apply (SI m m'); auto; rewrite nth_error_map, (nth_error_nth' _ 0), seq_nth by (rewrite ?seq_length; lia); reflexivity. }
      intros j k c c' Hjk Hj Hk. unfold cs in Hj, Hk. rewrite nth_error_map in Hj, Hk.
      destruct (nth_error (filter _ (seq 0 L)) j) as [m|] eqn:Em; [|discriminate]. destruct (nth_error (filter _ (seq 0 L)) k) as [m'|] eqn:Em'; [|discriminate].
      cbn in Hj, Hk. injection Hj as <-. injection Hk as <-. cbn [fst snd].
      assert (Hm : m < L) by (apply FL; eapply nth_error_In; eauto). assert (Hm' : m' < L) by (apply FL; eapply nth_error_In; eauto).
      assert (LT : m < m').
      { clear -Em Em' Hjk. revert Em Em' Hjk. generalize 0 as a0. generalize L. intros n. revert j k. induction n as [|n IH]; intros j k a0 H1 H2 H; [destruct j; discriminate|].
        cbn [seq filter] in H1, H2. destruct (nth a0 jv false).
        - destruct j, k; try lia.
          + cbn in H1. injection H1 as <-. cbn in H2. apply nth_error_In in H2. apply filter_In in H2. destruct H2 as [H2 _]. apply in_seq in H2. lia.
          + cbn in H1, H2. apply (IH j k (S a0)); auto. lia.
        - apply (IH j k (S a0)); auto. }
      pose proof (SI m m' LT Hm') as X. destruct (GOOD m Hm) as (_ & _ & Y). destruct (GOOD m' Hm') as (_ & _ & Y'). lia. }
    assert (Hincr : forall i j s t, i < j -> nth_error ss i = Some s -> nth_error ss j = Some t -> fl s < fl t).
    { intros i j s t Hij Hi Hj. destruct (SS i s Hi) as (m & Hm & E1 & ->). destruct (SS j t Hj) as (m' & Hm' & E2 & ->).
      rewrite !FLC by auto. apply (INCR i j _ _ Hij E1 E2). }
    rewrite (indices_ok size uc Hsize valid Hvalid inds Lf Ff' ss Hgood Hl). cbn [obind].
    destruct (structure_ok size uc nfam Hsize Huc Hfam norb_of Hnorb Hcontig Hsorted valid Hvalid inds Lf Ff' fpos Hpos padd dflt shift ss Hgood Hl Hincr l)
      as (dd & hb & bd & E & VF & LB & FR & HN & HL & BN & BL & HB & BB).
    assert (LC : length ss = length cs) by (unfold ss, cs; rewrite !map_length; reflexivity).
    exists cs, (LeadStructure (indices valid ss) (map (gpos fpos padd dflt shift) ss) dd hb bd).
    split; [exact E|]. cbn [lt_indices lt_pos lt_subs lt_hops lt_bound].
    assert (MAP : forall {B} (g : nat -> B), map (fun s => g (fl s)) ss = map (fun c => g (at_place c)) cs).
    { intros B g. unfold ss, cs. rewrite !map_map. apply map_ext_in. intros m Hm. rewrite FLC by (apply FL; auto). reflexivity. }
    split.
    { apply NoDup_nth_error. intros j k Hj Ejk. destruct (nth_error cs j) as [c|] eqn:E1; [|apply nth_error_None in E1; lia].
      destruct (Nat.lt_trichotomy j k) as [H|[H|H]]; auto; exfalso.
      - pose proof (INCR j k c c H E1 (eq_sym Ejk)). lia.
      - pose proof (INCR k j c c H (eq_sym Ejk) E1). lia. }
    split; [exact INC|]. split; [unfold indices, qs; rewrite map_map; apply (MAP Z (fun q => Z.of_nat (number valid q)))|].
    split; [exact INCR|]. split; [apply (MAP P (fun q => padd (nth q fpos dflt) shift))|].
    split; [rewrite <- LC; exact VF|]. split.
    { intros j i a u Hj Hu. rewrite LB. rewrite (MAP _ (label_of size uc)), nth_error_map, Hj. cbn [option_map fst snd].
      assert (Hi : cell_of size i /\ a < length uc) by (apply nth_error_In in Hj; apply INC in Hj; destruct Hj as (A & B & _); auto). destruct Hi as [Hi Ha].
      unfold label_of. change (sub_of size (place size i a)) with (snd (bs_of size (place size i a))). rewrite (bs_of_place size) by auto.
      cbn [snd]. rewrite Hu. reflexivity. }
    split; [rewrite LB, map_length; exact LC|]. split; [exact FR|].
    split; [exact HL|]. split; [exact BL|]. split.
    { intros f p q Hf. rewrite HB by auto. rewrite (hops_of_in size uc Hsize valid Hvalid inds Lf fpos Hpos ss Hgood Hincr).
      split; intros (i & a & u & h & H1 & H2 & H3 & H4 & H5 & H6); exists i, a, u, h; rewrite !NS in *; auto 10. }
    split.
    { intros f p q Hf. rewrite BB by auto. rewrite (hops_of_in size uc Hsize valid Hvalid inds Lf fpos Hpos ss Hgood Hincr).
      split; intros (i & a & u & h & H1 & H2 & H3 & H4 & H5 & H6); exists i, a, u, h; rewrite !NS in *; auto 10. }
    split; [intros f Hf; rewrite HB, BB by auto; split; eapply hops_of_nodup; eauto|].
    split; intros f f' [p q] Hf Hf'; rewrite ?HB, ?BB by auto; eapply hops_of_same; eauto.
  Qed.
End Struct.

Section Attached.
  Context {P : Type}.
  Variable size lower : idx3.
  Variable uc : list (usite P).
  Variable fpos : list P.
  Variable l : lead P.
  Hypothesis Hsize : positive_block size.
  Hypothesis Haxis : lead_axis l < 3.
  Hypothesis Hpos : length fpos = num_block_sites size (length uc).
  Hypothesis Hover : overlaps size lower l.
  Variable inside : P -> bool.
  Hypothesis Hin : forall ps, lead_contains l ps = map inside ps.

  Lemma cell_put : forall i j, cell_of size i -> cell_of size j -> cell_of size (put3 (lead_axis l) (comp3 (lead_axis l) j) i).
  Proof.
    intros [x y z] [x' y' z'] H1 H2. unfold cell_of in *. cbn [ix iy iz] in *.
    destruct (lead_axis l) as [|[|k]]; cbn [put3 comp3 ix iy iz]; lia.
  Qed.

  Lemma same_cell : forall i j, put3 (lead_axis l) 0 j = put3 (lead_axis l) 0 i -> depth size l j = depth size l i -> j = i.
  Proof.
    intros i j E D. rewrite <- (put_comp (lead_axis l) i), <- (put_comp (lead_axis l) j).
    assert (EC : comp3 (lead_axis l) j = comp3 (lead_axis l) i) by (unfold depth in D; destruct (lead_sign l <? 0)%Z; lia).
    rewrite EC. apply (f_equal (put3 (lead_axis l) (comp3 (lead_axis l) i))) in E. rewrite !put_put in E. exact E.
  Qed.

  Lemma beside_put : forall i k, beside lower l i -> beside lower l (put3 (lead_axis l) k i).
  Proof. intros i k H b Hb Nb. rewrite comp_put_other by auto. apply H; auto. Qed.

  (** After attaching, the contacts exist and are all present. *)
  Theorem attached_live : forall valid valid', length valid = num_block_sites size (length uc) ->
    create_attachment_area size lower uc fpos l valid = Ok valid' ->
    has_contacts size lower uc fpos l inside valid' /\
    (forall i a, contact size lower uc fpos l inside valid' i a -> flagged size valid' (i, a) = true).
  Proof.
    intros valid valid' Hv E.
    pose proof (attach_spec size lower uc fpos l Hsize Haxis Hpos (Hlen l inside Hin) Hover inside Hin valid Hv) as S. rewrite E in S.
    destruct S as ([(i0 & a0 & K1 & K2 & K3) _] & LV & d & [(i1 & a1 & S1 & S2 & S3 & S4 & S5) Smin] & F).
    assert (ST : forall d', starts size lower uc l valid' d' <-> d' = d).
    { assert (ST : starts size lower uc l valid' d).
      { split; [exists i1, a1; split; [exact S1|]; split; [exact S2|]; split; [exact S3|]; split; [exact S4|]; apply F; auto|].
        intros i a Hi Ha B Fl. apply F in Fl; auto. destruct Fl as [Fl|(G1 & G2 & _)]; [eapply Smin; eauto|exact G2]. }
      intros d'. split; [|intros ->; exact ST]. intros [(i & a & Q1 & Q2 & Q3 & Q4 & Q5) Qmin].
      destruct ST as [(i' & a' & T1 & T2 & T3 & T4 & T5) Tmin].
      pose proof (Qmin i' a' T1 T2 T3 T5). pose proof (Tmin i a Q1 Q2 Q3 Q5). lia. }
    split.
    - set (i := put3 (lead_axis l) (comp3 (lead_axis l) i1) i0). exists i, a0. split; [apply cell_put; auto|]. split; [exact K2|]. split.
      + destruct K3 as [B (p & Ep & Ip)]. split; [apply beside_put; exact B|]. exists p. unfold i. rewrite put_put. auto.
      + exists d. split; [apply ST; reflexivity|]. rewrite <- S4. unfold depth, i. rewrite comp_put_same. reflexivity.
    - intros i a (C1 & C2 & C3 & d' & C4 & C5). apply ST in C4. subst d'. apply F; auto.
      destruct (flagged size valid (i, a)) eqn:Fl; [left; reflexivity|right]. split; [exact C3|]. split; [lia|].
      intros j Hj Ej Dj. assert (j = i) by (apply same_cell; auto; lia). subst j. exact Fl.
  Qed.
End Attached.
