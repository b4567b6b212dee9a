(* Several leads: attaching one lead and then others (C35, C42, C47). *)
From Verif Require Import Base Rle Blocks Foundation FoundationSpec Leads LeadsSpec LeadRows LeadAttach LeadBuild LeadStruct.

(** Lead [m] keeps clear of lead [l]: they run beside no common cell, or they come from opposite
    sides. *)
Definition keeps_clear {P} (size lower : idx3) (l m : lead P) : Prop :=
  (forall i, cell_of size i -> beside lower l i -> ~ beside lower m i) \/
  (lead_axis m = lead_axis l /\ (lead_sign m <? 0)%Z = negb (lead_sign l <? 0)%Z).

Section Many.
  Context {P : Type}.
  Variable size lower : idx3.
  Variable uc : list (usite P).
  Variable fpos : list P.
  Hypothesis Hsize : positive_block size.
  Notation N := (num_block_sites size (length uc)).
  Hypothesis Hpos : length fpos = N.
  Definition good_lead (l : lead P) (inside : P -> bool) : Prop :=
    lead_axis l < 3 /\ overlaps size lower l /\ forall ps, lead_contains l ps = map inside ps.

  Lemma attach_good : forall l inside valid valid', good_lead l inside -> length valid = N ->
    create_attachment_area size lower uc fpos l valid = Ok valid' ->
    attachable size lower uc fpos l inside valid /\ length valid' = N /\
    exists d, starts size lower uc l valid d /\
      forall i s, cell_of size i -> s < length uc ->
        (flagged size valid' (i, s) = true <-> flagged size valid (i, s) = true \/ gap size lower fpos l inside valid d i s).
  Proof.
    intros l inside valid valid' (Ha & Ho & Hi) Hv E.
    pose proof (attach_spec size lower uc fpos l Hsize Ha Hpos (Hlen l inside Hi) Ho inside Hi valid Hv) as S. rewrite E in S.
    destruct S as (A & L & d & S & F). split; [exact A|]. split; [congruence|]. exists d. auto.
  Qed.

  Lemma areas_length : forall ls valid valid', (forall l, In l ls -> exists inside, good_lead l inside) -> length valid = N ->
    create_attachment_areas size lower uc fpos ls valid = Ok valid' -> length valid' = N.
  Proof.
    induction ls as [|l t IH]; intros valid valid' G Hv E; [injection E as <-; exact Hv|].
    cbn in E. destruct (create_attachment_area size lower uc fpos l valid) as [v| |] eqn:E1; try discriminate.
    destruct (G l (or_introl eq_refl)) as (ins & Gl). destruct (attach_good l ins valid v Gl Hv E1) as (_ & Lv & _).
    apply (IH v valid'); auto. intros m Hm. apply G. now right.
  Qed.

  Lemma areas_safe : forall ls valid, (forall l, In l ls -> exists inside, good_lead l inside) -> length valid = N ->
    create_attachment_areas size lower uc fpos ls valid <> UB.
  Proof.
    induction ls as [|l t IH]; intros valid G Hv E; [discriminate|].
    cbn in E. destruct (G l (or_introl eq_refl)) as (ins & Gl).
    destruct (create_attachment_area size lower uc fpos l valid) as [v| |] eqn:E1; [|discriminate|].
    - destruct (attach_good l ins valid v Gl Hv E1) as (_ & Lv & _). apply (IH v); auto. intros m Hm. apply G. now right.
    - destruct Gl as (Ha & Ho & Hi). pose proof (attach_spec size lower uc fpos l Hsize Ha Hpos (Hlen l ins Hi) Ho ins Hi valid Hv) as S. rewrite E1 in S. exact S.
  Qed.

  (** What a lead leaves behind and later leads must not disturb. *)
  Definition settled (l : lead P) (inside : P -> bool) (valid : list bool) : Prop :=
    exists d, starts size lower uc l valid d /\
      (forall i a, cell_of size i -> a < length uc -> mouth size lower fpos l inside i a -> depth size l i = d -> flagged size valid (i, a) = true).

  Lemma starts_unique : forall (l : lead P) valid d d', starts size lower uc l valid d -> starts size lower uc l valid d' -> d = d'.
  Proof.
    intros l valid d d' [(i & a & Q1 & Q2 & Q3 & Q4 & Q5) Qmin] [(i' & a' & T1 & T2 & T3 & T4 & T5) Tmin].
    pose proof (Qmin i' a' T1 T2 T3 T5). pose proof (Tmin i a Q1 Q2 Q3 Q5). lia.
  Qed.

  Lemma settled_live : forall l inside valid, settled l inside valid ->
    forall i a, contact size lower uc fpos l inside valid i a -> flagged size valid (i, a) = true.
  Proof.
    intros l inside valid (d & S & F) i a (C1 & C2 & C3 & d' & C4 & C5). apply F; auto. rewrite (starts_unique l valid d d' S C4). exact C5.
  Qed.

  Lemma settled_contacts : forall l inside valid, lead_axis l < 3 -> settled l inside valid ->
    (exists i a, cell_of size i /\ a < length uc /\ mouth size lower fpos l inside i a) ->
    has_contacts size lower uc fpos l inside valid.
  Proof.
    intros l inside valid Haxis (d & S & F) (i0 & a0 & K1 & K2 & K3). destruct S as [(i1 & a1 & S1 & S2 & S3 & S4 & S5) Smin].
    exists (put3 (lead_axis l) (comp3 (lead_axis l) i1) i0), a0. split; [eapply cell_put; eauto|]. split; [exact K2|]. split.
    - destruct K3 as [B (p & Ep & Ip)]. split; [eapply beside_put; eauto|]. exists p. rewrite put_put. auto.
    - exists d. split; [split; [exists i1, a1; auto|exact Smin]|]. rewrite <- S4. unfold depth. rewrite comp_put_same. reflexivity.
  Qed.

  Lemma attach_settles : forall l inside valid valid', good_lead l inside -> length valid = N ->
    create_attachment_area size lower uc fpos l valid = Ok valid' -> settled l inside valid'.
  Proof.
    intros l inside valid valid' G Hv E. pose proof G as (Ha & Ho & Hi).
    destruct (attach_good l inside valid valid' G Hv E) as (_ & _ & d & [(i1 & a1 & S1 & S2 & S3 & S4 & S5) Smin] & F).
    exists d. split.
    - split; [exists i1, a1; split; [exact S1|]; split; [exact S2|]; split; [exact S3|]; split; [exact S4|]; apply F; auto|].
      intros i a Hi' Hs B Fl. apply F in Fl; auto. destruct Fl as [Fl|(G1 & G2 & _)]; [eapply Smin; eauto|exact G2].
    - intros i a C1 C2 C3 C5. apply F; auto.
      destruct (flagged size valid (i, a)) eqn:Fl; [left; reflexivity|right]. split; [exact C3|]. split; [lia|].
      intros j Hj Ej Dj. assert (j = i) by (eapply same_cell; eauto; lia). subst j. exact Fl.
  Qed.

  Lemma beside_column : forall (l : lead P) i j, lead_axis l < 3 -> put3 (lead_axis l) 0 j = put3 (lead_axis l) 0 i -> beside lower l i -> beside lower l j.
  Proof.
    intros l i j Ha E B b Hb Nb. specialize (B b Hb Nb). replace (comp3 b j) with (comp3 b i); [exact B|].
    rewrite <- (comp_put_other (lead_axis l) b 0 i), <- (comp_put_other (lead_axis l) b 0 j), E by auto. reflexivity.
  Qed.

  (** A later lead that keeps clear leaves a settled lead settled. *)
  Lemma settled_keeps : forall l inside m inm valid valid', settled l inside valid -> good_lead m inm -> keeps_clear size lower l m ->
    length valid = N -> create_attachment_area size lower uc fpos m valid = Ok valid' -> settled l inside valid'.
  Proof.
    intros l inside m inm valid valid' (d & S & FL) G K Hv E.
    destruct (attach_good m inm valid valid' G Hv E) as ((_ & AT) & _ & d' & [_ Smin'] & F).
    exists d. destruct S as [(i1 & a1 & S1 & S2 & S3 & S4 & S5) Smin]. split.
    - split; [exists i1, a1; split; [exact S1|]; split; [exact S2|]; split; [exact S3|]; split; [exact S4|]; apply F; auto|].
      intros i a Ci La B Fl. apply F in Fl; auto. destruct Fl as [Fl|(G1 & G2 & G3)]; [eapply Smin; eauto|].
      destruct K as [K|[KA KS]]; [exfalso; apply (K i Ci B); apply G1|].
      destruct (AT i a Ci La G1) as (j & Cj & Ej & Fj).
      assert (Bm : beside lower m j) by (apply (beside_column m i j (proj1 G) Ej); apply G1).
      assert (Bl : beside lower l j) by (rewrite KA in Ej; apply (beside_column l i j ltac:(rewrite <- KA; apply G) Ej B)).
      pose proof (Smin j a Cj La Bl Fj). pose proof (Smin' j a Cj La Bm Fj).
      destruct (Z_le_gt_dec (depth size m j) (depth size m i)) as [Q|Q].
      + rewrite (G3 j Cj Ej (conj H0 Q)) in Fj. discriminate.
      + unfold depth in *. unfold axis_len in *. rewrite KA, KS in *. destruct (lead_sign l <? 0)%Z; cbn [negb] in *; lia.
    - intros i a C1 C2 C3 C5. apply F; auto.
  Qed.

  Theorem many_live : forall pre l inside post valid valid',
    (forall m, In m (pre ++ l :: post) -> exists inm, good_lead m inm) -> good_lead l inside ->
    length valid = N -> (forall m, In m post -> keeps_clear size lower l m) ->
    create_attachment_areas size lower uc fpos (pre ++ l :: post) valid = Ok valid' ->
    length valid' = N /\ has_contacts size lower uc fpos l inside valid' /\
    (forall i a, contact size lower uc fpos l inside valid' i a -> flagged size valid' (i, a) = true).
  Proof.
    intros pre l inside post valid valid' G Gl Hv K E. split; [eapply areas_length; eauto|].
    revert valid Hv G E. induction pre as [|x pre IH]; intros valid Hv G E.
    - cbn [app] in *. cbn in E. destruct (create_attachment_area size lower uc fpos l valid) as [v| |] eqn:E1; try discriminate.
      destruct (attach_good l inside valid v Gl Hv E1) as ((MT & _) & Lv & _).
      pose proof (attach_settles l inside valid v Gl Hv E1) as S.
      assert (S' : settled l inside valid').
      { clear E1 Hv. assert (G' : forall m, In m post -> exists inm, good_lead m inm) by (intros m Hm; apply G; now right). clear G.
        revert v Lv S E. induction post as [|m t IH]; intros v Lv S E; [injection E as <-; exact S|].
        cbn in E. destruct (create_attachment_area size lower uc fpos m v) as [w| |] eqn:E1; try discriminate.
        destruct (G' m (or_introl eq_refl)) as (inm & Gm).
        apply (IH (fun x H => K x (or_intror H)) (fun x H => G' x (or_intror H)) w); auto.
        - destruct (attach_good m inm v w Gm Lv E1) as (_ & Lw & _). exact Lw.
        - apply (settled_keeps l inside m inm v w S Gm (K m (or_introl eq_refl)) Lv E1). }
      split; [apply settled_contacts; auto; apply Gl|apply settled_live; exact S'].
    - cbn in E. destruct (create_attachment_area size lower uc fpos x valid) as [v| |] eqn:E1; try discriminate.
      destruct (G x (or_introl eq_refl)) as (inx & Gx).
      apply (IH v); auto.
      + destruct (attach_good x inx valid v Gx Hv E1) as (_ & Lw & _). exact Lw.
      + intros m Hm. apply G. now right.
  Qed.
End Many.
