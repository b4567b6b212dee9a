(* Dangling-site removal on an abstract symmetric bond graph: the recursion of
   clear_neighbors (Foundation.cpp:74-101) with sites replaced by their array index.
   DanglingProofs.v shows that the site-level model is an instance. *)
From Verif Require Import Base.

Fixpoint aclear (nb : nat -> list nat) (m : Z) (fuel : nat) (v : nat) (st : list bool * list Z)
  : outcome (list bool * list Z) :=
  match fuel with
  | 0 => Throw
  | S fuel' =>
    obind (aget (snd st) v) (fun c0 =>
    if (c0 =? 0)%Z then Ok st else
    obind (ofold (fun st u =>
             obind (aget (fst st) u) (fun b =>
             if negb b then Ok st else
             obind (aget (snd st) u) (fun c =>
             if (c - 1 <? m)%Z then aclear nb m fuel' u (upd (fst st) u false, upd (snd st) u (c - 1)%Z)
             else Ok (fst st, upd (snd st) u (c - 1)%Z)))) (nb v) st) (fun st' =>
    obind (aget (snd st') v) (fun _ => Ok (fst st', upd (snd st') v 0%Z))))
  end.

Definition aremove (nb : nat -> list nat) (m : Z) (order : list nat) (valid : list bool) (counts : list Z)
  : outcome (list bool) :=
  omap fst
    (ofold (fun st v => obind (aget (fst st) v) (fun b =>
              if negb b then aclear nb m (S (length valid)) v st else Ok st))
           order (valid, counts)).

Section Graph.
  Variable n : nat.
  Variable nb : nat -> list nat.
  Variable m : Z.
  Hypothesis nb_range : forall v u, v < n -> In u (nb v) -> u < n.
  Hypothesis nb_nodup : forall v, v < n -> NoDup (nb v).
  Hypothesis nb_sym : forall v u, v < n -> u < n -> In u (nb v) -> In v (nb u).

  Notation valid_at l i := (nth i l false).
  Notation cnt_at l i := (nth i l 0%Z).

  Definition deg (u : nat) : nat := length (nb u).
  Definition deg_in (S : nat -> bool) (u : nat) : nat := countb S (nb u).
  Definition indeg (H : list (nat * nat)) (u : nat) : nat := countb (fun e => Nat.eqb (snd e) u) H.

  Variable T : nat -> bool.
  Hypothesis T_good : forall u, u < n -> T u = true ->
    (m <= Z.of_nat (deg_in T u))%Z \/ deg_in T u = deg u.

  Record Inv (st : list bool * list Z) (H : list (nat * nat)) : Prop := {
    inv_lv : length (fst st) = n;
    inv_lc : length (snd st) = n;
    inv_nd : NoDup H;
    inv_H : forall w u, In (w, u) H -> w < n /\ In u (nb w) /\ valid_at (fst st) w = false;
    inv_cnt : forall u, u < n -> valid_at (fst st) u = true ->
              cnt_at (snd st) u = (Z.of_nat (deg u) - Z.of_nat (indeg H u))%Z;
    inv_m : forall u, u < n -> valid_at (fst st) u = true ->
              indeg H u = 0 \/ (m <= cnt_at (snd st) u)%Z;
    inv_T : forall u, u < n -> T u = true -> valid_at (fst st) u = true
  }.

  Definition settled (st : list bool * list Z) (H : list (nat * nat)) (w : nat) : Prop :=
    forall u, In u (nb w) -> In (w, u) H \/ valid_at (fst st) u = false.

  Definition sources (H : list (nat * nat)) (u : nat) : list nat :=
    map fst (filter (fun e => Nat.eqb (snd e) u) H).

  Lemma sources_in : forall H u w, In w (sources H u) <-> In (w, u) H.
  Proof.
    intros H u w. unfold sources. rewrite in_map_iff. split.
    - intros ((a, b) & <- & Hf). apply filter_In in Hf. destruct Hf as [Hf E]. simpl in *.
      apply Nat.eqb_eq in E. subst. auto.
    - intros Hin. exists (w, u). split; auto. apply filter_In. split; auto. simpl. apply Nat.eqb_refl.
  Qed.

  Lemma sources_nodup : forall H u, NoDup H -> NoDup (sources H u).
  Proof.
    intros H u. unfold sources. induction H as [|[a b] H IH]; intros ND; simpl; [constructor|].
    inversion ND; subst. destruct (Nat.eqb_spec b u); simpl; auto. subst. constructor; auto.
    intros Hin. fold (sources H u) in Hin. apply (proj1 (sources_in H u a)) in Hin. contradiction.
  Qed.

  Lemma indeg_sources : forall H u, indeg H u = length (sources H u).
  Proof. intros. unfold indeg, countb, sources. rewrite map_length. reflexivity. Qed.

  Lemma indeg_cons : forall w u H x, indeg ((w, u) :: H) x = (b2n (Nat.eqb u x) + indeg H x)%nat.
  Proof. intros. unfold indeg, countb. simpl. destruct (Nat.eqb u x); reflexivity. Qed.

  Lemma sources_incl : forall st H u, Inv st H -> u < n -> incl (sources H u) (nb u).
  Proof.
    intros st H u I Hu w Hw. apply sources_in in Hw. destruct (inv_H _ _ I w u Hw) as (A & B & C).
    apply nb_sym; auto.
  Qed.

  Lemma full_indeg : forall st H u, Inv st H -> u < n -> indeg H u = deg u ->
    forall w, In w (nb u) -> In (w, u) H.
  Proof.
    intros st H u I Hu E w Hw. apply sources_in.
    refine (NoDup_length_incl (sources_nodup H u (inv_nd _ _ I)) _ _ w Hw).
    - rewrite <- indeg_sources, E. unfold deg. lia.
    - eapply sources_incl; eauto.
  Qed.

  Lemma indeg_le : forall st H u, Inv st H -> u < n -> indeg H u <= deg u.
  Proof.
    intros st H u I Hu. rewrite indeg_sources. apply NoDup_incl_length.
    - apply sources_nodup; apply (inv_nd _ _ I).
    - eapply sources_incl; eauto.
  Qed.

  Lemma degT_le : forall st H u, Inv st H -> u < n -> deg_in T u + indeg H u <= deg u.
  Proof.
    intros st H u I Hu. rewrite indeg_sources. unfold deg_in, countb, deg. rewrite <- app_length.
    apply NoDup_incl_length.
    - apply NoDup_app_intro.
      + apply NoDup_filter. apply nb_nodup; auto.
      + apply sources_nodup; apply (inv_nd _ _ I).
      + intros x Hx Hs. apply filter_In in Hx. destruct Hx as [Hx HT]. apply (proj1 (sources_in _ _ _)) in Hs.
        destruct (inv_H _ _ I x u Hs) as (A & B & C). rewrite (inv_T _ _ I x A HT) in C. discriminate.
    - intros x Hx. apply in_app_iff in Hx. destruct Hx as [Hx|Hx].
      + apply filter_In in Hx. tauto.
      + eapply sources_incl; eauto.
  Qed.

  Lemma count_true_upd : forall l u, nth u l false = true -> count_true (upd l u false) < count_true l.
  Proof.
    induction l as [|b l IH]; intros [|u] E; simpl in *; try discriminate; rewrite !count_true_cons.
    - subst. simpl. lia.
    - specialize (IH u E). lia.
  Qed.

  (** Effect of one call: what it guarantees relative to the state before. *)
  Record Eff (v : nat) (st : list bool * list Z) (H : list (nat * nat))
             (st' : list bool * list Z) (H' : list (nat * nat)) : Prop := {
    ef_inv : Inv st' H';
    ef_incl : incl H H';
    ef_mono : forall w, valid_at (fst st') w = true -> valid_at (fst st) w = true;
    ef_ct : count_true (fst st') <= count_true (fst st);
    ef_frame : forall w, w < n -> w <> v -> valid_at (fst st) w = false ->
        cnt_at (snd st') w = cnt_at (snd st) w /\ forall u, In (w, u) H' -> In (w, u) H;
    ef_new : forall w, w < n -> valid_at (fst st) w = true -> valid_at (fst st') w = false ->
        cnt_at (snd st') w = 0%Z /\ settled st' H' w
  }.

  Lemma settled_mono : forall st H st' H' w, settled st H w -> incl H H' ->
    (forall w, valid_at (fst st') w = true -> valid_at (fst st) w = true) -> settled st' H' w.
  Proof.
    intros st H st' H' w S I M u Hu. destruct (S u Hu) as [A|A]; [left; auto|right].
    destruct (valid_at (fst st') u) eqn:E; auto. rewrite (M u E) in A. discriminate.
  Qed.

  Definition pre (v : nat) (st : list bool * list Z) (H : list (nat * nat)) : Prop :=
    (cnt_at (snd st) v = 0%Z -> settled st H v) /\
    (cnt_at (snd st) v <> 0%Z -> forall u, ~ In (v, u) H).

  Lemma aclear_spec : forall fuel v st H,
    Inv st H -> v < n -> valid_at (fst st) v = false -> count_true (fst st) < fuel -> pre v st H ->
    exists st' H', aclear nb m fuel v st = Ok st' /\ Eff v st H st' H' /\
      cnt_at (snd st') v = 0%Z /\ settled st' H' v.
  Proof.
    induction fuel as [|fuel IH]; intros v st H I Hv Hinv Hfuel [P0 P1]; [lia|].
    cbn [aclear]. rewrite (aget_ok (snd st) v 0%Z) by (rewrite (inv_lc _ _ I); auto). cbn [obind].
    destruct (Z.eqb_spec (cnt_at (snd st) v) 0) as [E0|E0].
    { exists st, H. split; [reflexivity|]. split; [|split; auto].
      constructor; auto using incl_refl; try congruence. }
    specialize (P1 E0).
    (* the loop *)
    set (body := fun (st0 : list bool * list Z) (u : nat) =>
             obind (aget (fst st0) u) (fun b =>
             if negb b then Ok st0 else
             obind (aget (snd st0) u) (fun c =>
             if (c - 1 <? m)%Z then aclear nb m fuel u (upd (fst st0) u false, upd (snd st0) u (c - 1)%Z)
             else Ok (fst st0, upd (snd st0) u (c - 1)%Z)))).
    assert (LOOP : forall L2 L1 st1 H1, nb v = L1 ++ L2 -> Eff v st H st1 H1 ->
        (forall u, In (v, u) H1 -> In u L1) ->
        (forall u, In u L1 -> In (v, u) H1 \/ valid_at (fst st1) u = false) ->
        exists st2 H2, ofold body L2 st1 = Ok st2 /\ Eff v st H st2 H2 /\ settled st2 H2 v).
    { induction L2 as [|u L2 IHL]; intros L1 st1 H1 Enb EF EV ES.
      - exists st1, H1. cbn [ofold]. split; auto. split; auto. intros u Hu. rewrite app_nil_r in Enb.
        apply ES. congruence.
      - cbn [ofold].
        assert (Hu : u < n) by (apply (nb_range v); auto; rewrite Enb; apply in_app_iff; right; left; auto).
        assert (Huv : In u (nb v)) by (rewrite Enb; apply in_app_iff; right; left; auto).
        pose proof (ef_inv _ _ _ _ _ EF) as I1.
        assert (Hv1 : valid_at (fst st1) v = false).
        { destruct (valid_at (fst st1) v) eqn:E; auto. rewrite (ef_mono _ _ _ _ _ EF v E) in Hinv. discriminate. }
        assert (Enb' : nb v = (L1 ++ [u]) ++ L2) by (rewrite <- app_assoc; exact Enb).
        unfold body at 1. rewrite (aget_ok (fst st1) u false) by (rewrite (inv_lv _ _ I1); auto). cbn [obind].
        destruct (valid_at (fst st1) u) eqn:EU; cbn [negb].
        2:{ cbn [obind]. apply (IHL (L1 ++ [u]) st1 H1); auto.
            - intros x Hx. apply in_app_iff. left; auto.
            - intros x Hx. apply in_app_iff in Hx. destruct Hx as [Hx|[->|[]]]; auto. }
        rewrite (aget_ok (snd st1) u 0%Z) by (rewrite (inv_lc _ _ I1); auto). cbn [obind].
        assert (NV : v <> u) by congruence.
        assert (NEW : ~ In (v, u) H1).
        { intros C. apply EV in C. assert (ND : NoDup (L1 ++ u :: L2)) by (rewrite <- Enb; apply nb_nodup; auto).
          eapply NoDup_app_disj; [exact ND|exact C|left; reflexivity]. }
        pose proof (inv_cnt _ _ I1 u Hu EU) as CU.
        set (c := cnt_at (snd st1) u) in *.
        set (H2 := (v, u) :: H1).
        assert (IND : indeg H2 u = S (indeg H1 u)) by (unfold H2; rewrite indeg_cons, Nat.eqb_refl; reflexivity).
        assert (LC : u < length (snd st1)) by (rewrite (inv_lc _ _ I1); auto).
        assert (LV : u < length (fst st1)) by (rewrite (inv_lv _ _ I1); auto).
        assert (OTH : forall x, x <> u -> indeg H2 x = indeg H1 x).
        { intros x Hx. unfold H2. rewrite indeg_cons. destruct (Nat.eqb_spec u x); [congruence|reflexivity]. }
        destruct (Z.ltb_spec (c - 1) m) as [LT|GE].
        + (* the neighbour becomes dangling *)
          set (st2 := (upd (fst st1) u false, upd (snd st1) u (c - 1)%Z)).
          assert (V2 : forall x, valid_at (fst st2) x = if Nat.eqb u x then false else valid_at (fst st1) x)
            by (intros; unfold st2; cbn [fst]; apply nth_upd; auto).
          assert (C2 : forall x, cnt_at (snd st2) x = if Nat.eqb u x then (c - 1)%Z else cnt_at (snd st1) x)
            by (intros; unfold st2; cbn [snd]; apply nth_upd; auto).
          assert (NT : T u = false).
          { destruct (T u) eqn:ET; auto. exfalso. pose proof (degT_le _ _ u I1 Hu) as DL.
            destruct (T_good u Hu ET) as [G|G]; [|].
            - (* deg_in T u <= deg - indeg H1 = c, but v is a further invalid source *)
              assert (DL2 : deg_in T u + indeg H2 u <= deg u).
              { rewrite indeg_sources. unfold deg_in, countb, deg. rewrite <- app_length.
                apply NoDup_incl_length.
                - apply NoDup_app_intro.
                  + apply NoDup_filter. apply nb_nodup; auto.
                  + apply sources_nodup. unfold H2. constructor; auto. apply (inv_nd _ _ I1).
                  + intros x Hx Hs. apply filter_In in Hx. destruct Hx as [Hx HT].
                    apply (proj1 (sources_in _ _ _)) in Hs. destruct Hs as [Hs|Hs].
                    * injection Hs as ->. rewrite (inv_T _ _ I1 x Hv HT) in Hv1. discriminate.
                    * destruct (inv_H _ _ I1 x u Hs) as (A & B & C). rewrite (inv_T _ _ I1 x A HT) in C. discriminate.
                - intros x Hx. apply in_app_iff in Hx. destruct Hx as [Hx|Hx].
                  + apply filter_In in Hx. tauto.
                  + apply (proj1 (sources_in _ _ _)) in Hx. destruct Hx as [Hx|Hx].
                    * injection Hx as <-. apply nb_sym; auto.
                    * destruct (inv_H _ _ I1 x u Hx) as (A & B & C). apply nb_sym; auto. }
              lia.
            - (* all neighbours of u are in T, but v is not valid *)
              assert (HT : T v = true).
              { assert (F : forall l, countb T l = length l -> forall x, In x l -> T x = true).
                { clear. unfold countb. induction l as [|y l IHl]; intros E x Hx; [inversion Hx|].
                  simpl in E. destruct (T y) eqn:ET.
                  - simpl in E. destruct Hx as [<-|Hx]; auto. 
                  - assert (length (filter T l) <= length l) by apply filter_len_le. lia. }
                apply (F (nb u) G). apply nb_sym; auto. }
              rewrite (inv_T _ _ I1 v Hv HT) in Hv1. discriminate. }
          assert (I2 : Inv st2 H2).
          { constructor.
            - unfold st2; cbn [fst]. rewrite upd_length. apply (inv_lv _ _ I1).
            - unfold st2; cbn [snd]. rewrite upd_length. apply (inv_lc _ _ I1).
            - unfold H2. constructor; auto. apply (inv_nd _ _ I1).
            - intros w x Hin. rewrite V2. destruct Hin as [Hin|Hin].
              + injection Hin as <- <-. repeat split; auto. destruct (Nat.eqb u v); auto.
              + destruct (inv_H _ _ I1 w x Hin) as (A & B & C). repeat split; auto. destruct (Nat.eqb u w); auto.
            - intros x Hx Ex. rewrite V2 in Ex. rewrite C2. destruct (Nat.eqb_spec u x); [discriminate|].
              rewrite OTH by congruence. apply (inv_cnt _ _ I1); auto.
            - intros x Hx Ex. rewrite V2 in Ex. rewrite C2. destruct (Nat.eqb_spec u x); [discriminate|].
              rewrite OTH by congruence. apply (inv_m _ _ I1); auto.
            - intros x Hx Ex. rewrite V2. destruct (Nat.eqb_spec u x); [subst; congruence|].
              apply (inv_T _ _ I1); auto. }
          destruct (IH u st2 H2) as (st3 & H3 & E3 & EF3 & C3 & S3); auto.
          * rewrite V2, Nat.eqb_refl. reflexivity.
          * pose proof (count_true_upd (fst st1) u EU). pose proof (ef_ct _ _ _ _ _ EF). unfold st2; cbn [fst]. lia.
          * split.
            -- rewrite C2, Nat.eqb_refl. intros Z0 w Hw. right. rewrite V2.
               assert (indeg H2 u = deg u) by lia.
               pose proof (full_indeg _ _ u I2 Hu H0 w Hw) as Hin.
               destruct (inv_H _ _ I2 w u Hin) as (_ & _ & C). rewrite V2 in C. exact C.
            -- intros _ x Hin. destruct Hin as [Hin|Hin]; [congruence|].
               destruct (inv_H _ _ I1 u x Hin) as (_ & _ & C). congruence.
          * cbn [obind]. fold st2. rewrite E3. cbn [obind].
            pose proof (ef_frame _ _ _ _ _ EF3) as FR.
            assert (V23 : forall x, valid_at (fst st3) x = true -> valid_at (fst st1) x = true).
            { intros x Ex. apply (ef_mono _ _ _ _ _ EF3) in Ex. rewrite V2 in Ex. destruct (Nat.eqb u x); [discriminate|auto]. }
            assert (Hv2 : valid_at (fst st2) v = false) by (rewrite V2; destruct (Nat.eqb u v); auto).
            apply (IHL (L1 ++ [u]) st3 H3); auto.
            -- constructor.
               ++ apply (ef_inv _ _ _ _ _ EF3).
               ++ intros x Hx. apply (ef_incl _ _ _ _ _ EF3). right. apply (ef_incl _ _ _ _ _ EF). auto.
               ++ intros x Ex. apply (ef_mono _ _ _ _ _ EF). apply V23. auto.
               ++ pose proof (ef_ct _ _ _ _ _ EF3). pose proof (count_true_upd (fst st1) u EU).
                  pose proof (ef_ct _ _ _ _ _ EF). unfold st2 in H0; cbn [fst] in H0. lia.
               ++ intros w Hw Nw Ew.
                  assert (Ew1 : valid_at (fst st1) w = false).
                  { destruct (valid_at (fst st1) w) eqn:E; auto. rewrite (ef_mono _ _ _ _ _ EF w E) in Ew. discriminate. }
                  assert (Nwu : w <> u) by congruence.
                  destruct (FR w Hw Nwu) as [A B]; [rewrite V2; destruct (Nat.eqb u w); auto|].
                  destruct (ef_frame _ _ _ _ _ EF w Hw Nw Ew) as [A1 B1]. split.
                  ** rewrite A, C2. destruct (Nat.eqb_spec u w); [congruence|auto].
                  ** intros x Hx. apply B1. apply B in Hx. destruct Hx as [Hx|Hx]; [congruence|auto].
               ++ intros w Hw Ew E3w. destruct (Nat.eq_dec w u) as [->|Nwu]; [split; auto|].
                  destruct (valid_at (fst st1) w) eqn:E1w.
                  ** apply (ef_new _ _ _ _ _ EF3); auto. rewrite V2. destruct (Nat.eqb_spec u w); [congruence|auto].
                  ** destruct (ef_new _ _ _ _ _ EF w Hw Ew E1w) as [A B].
                     destruct (FR w Hw Nwu) as [A2 _]; [rewrite V2; destruct (Nat.eqb u w); auto|].
                     split.
                     --- rewrite A2, C2. destruct (Nat.eqb_spec u w); [congruence|auto].
                     --- eapply settled_mono; [exact B| |exact V23].
                         intros x Hx. apply (ef_incl _ _ _ _ _ EF3). right. auto.
            -- intros x Hx. destruct (FR v Hv NV Hv2) as [_ B]. apply B in Hx. destruct Hx as [Hx|Hx].
               ++ injection Hx as <-. apply in_app_iff. right; left; auto.
               ++ apply in_app_iff. left. auto.
            -- intros x Hx. apply in_app_iff in Hx. destruct Hx as [Hx|[<-|[]]].
               ++ destruct (ES x Hx) as [A|A].
                  ** left. apply (ef_incl _ _ _ _ _ EF3). right. auto.
                  ** right. destruct (valid_at (fst st3) x) eqn:E; auto. rewrite (V23 x E) in A. discriminate.
               ++ left. apply (ef_incl _ _ _ _ _ EF3). left. reflexivity.
        + (* still enough neighbours *)
          set (st2 := (fst st1, upd (snd st1) u (c - 1)%Z)).
          assert (C2 : forall x, cnt_at (snd st2) x = if Nat.eqb u x then (c - 1)%Z else cnt_at (snd st1) x)
            by (intros; unfold st2; cbn [snd]; apply nth_upd; auto).
          cbn [obind]. fold st2.
          apply (IHL (L1 ++ [u]) st2 H2); auto.
          * constructor.
            -- constructor.
               ++ apply (inv_lv _ _ I1).
               ++ unfold st2; cbn [snd]. rewrite upd_length. apply (inv_lc _ _ I1).
               ++ unfold H2. constructor; auto. apply (inv_nd _ _ I1).
               ++ intros w x Hin. destruct Hin as [Hin|Hin].
                  ** injection Hin as <- <-. auto.
                  ** apply (inv_H _ _ I1); auto.
               ++ intros x Hx Ex. rewrite C2. destruct (Nat.eqb_spec u x).
                  ** subst. lia.
                  ** rewrite OTH by congruence. apply (inv_cnt _ _ I1); auto.
               ++ intros x Hx Ex. rewrite C2. destruct (Nat.eqb_spec u x).
                  ** right. lia.
                  ** rewrite OTH by congruence. apply (inv_m _ _ I1); auto.
               ++ apply (inv_T _ _ I1).
            -- intros x Hx. right. apply (ef_incl _ _ _ _ _ EF). auto.
            -- apply (ef_mono _ _ _ _ _ EF).
            -- apply (ef_ct _ _ _ _ _ EF).
            -- intros w Hw Nw Ew.
               destruct (ef_frame _ _ _ _ _ EF w Hw Nw Ew) as [A1 B1]. split.
               ++ rewrite C2. destruct (Nat.eqb_spec u w); auto. subst w.
                  rewrite (ef_mono _ _ _ _ _ EF u EU) in Ew. discriminate.
               ++ intros x [Hx|Hx]; [congruence|auto].
            -- intros w Hw Ew E2w. destruct (ef_new _ _ _ _ _ EF w Hw Ew E2w) as [A B]. split.
               ++ rewrite C2. destruct (Nat.eqb_spec u w); auto. subst w. unfold st2 in E2w; cbn [fst] in E2w. congruence.
               ++ eapply settled_mono; [exact B| |auto]. intros x Hx. right; auto.
          * intros x [Hx|Hx]; apply in_app_iff.
            -- injection Hx as <-. right; left; auto.
            -- left; auto.
          * intros x Hx. apply in_app_iff in Hx. destruct Hx as [Hx|[<-|[]]].
            -- destruct (ES x Hx) as [A|A]; [left; right; auto|right; auto].
            -- left; left; reflexivity. }
    destruct (LOOP (nb v) [] st H) as (st2 & H2 & E2 & EF2 & S2); auto.
    - constructor; auto using incl_refl; try congruence.
    - intros u [].
    - fold body. rewrite E2. cbn [obind].
      pose proof (ef_inv _ _ _ _ _ EF2) as I2.
      rewrite (aget_ok (snd st2) v 0%Z) by (rewrite (inv_lc _ _ I2); auto). cbn [obind].
      set (st3 := (fst st2, upd (snd st2) v 0%Z)).
      assert (LC2 : v < length (snd st2)) by (rewrite (inv_lc _ _ I2); auto).
      assert (C3 : forall x, cnt_at (snd st3) x = if Nat.eqb v x then 0%Z else cnt_at (snd st2) x)
            by (intros; unfold st3; cbn [snd]; apply nth_upd; auto).
      assert (Hv2 : valid_at (fst st2) v = false).
      { destruct (valid_at (fst st2) v) eqn:E; auto. rewrite (ef_mono _ _ _ _ _ EF2 v E) in Hinv. discriminate. }
      exists st3, H2. split; [reflexivity|]. split; [|split].
      + constructor.
        * constructor.
          -- apply (inv_lv _ _ I2).
          -- unfold st3; cbn [snd]. rewrite upd_length. apply (inv_lc _ _ I2).
          -- apply (inv_nd _ _ I2).
          -- apply (inv_H _ _ I2).
          -- intros x Hx Ex. rewrite C3. destruct (Nat.eqb_spec v x); [subst; unfold st3 in Ex; cbn [fst] in Ex; congruence|].
             apply (inv_cnt _ _ I2); auto.
          -- intros x Hx Ex. rewrite C3. destruct (Nat.eqb_spec v x); [subst; unfold st3 in Ex; cbn [fst] in Ex; congruence|].
             apply (inv_m _ _ I2); auto.
          -- apply (inv_T _ _ I2).
        * apply (ef_incl _ _ _ _ _ EF2).
        * apply (ef_mono _ _ _ _ _ EF2).
        * apply (ef_ct _ _ _ _ _ EF2).
        * intros w Hw Nw Ew. destruct (ef_frame _ _ _ _ _ EF2 w Hw Nw Ew) as [A B]. split; auto.
          rewrite C3. destruct (Nat.eqb_spec v w); [congruence|auto].
        * intros w Hw Ew E3w. destruct (ef_new _ _ _ _ _ EF2 w Hw Ew E3w) as [A B]. split; auto.
          rewrite C3. destruct (Nat.eqb_spec v w); [congruence|auto].
      + rewrite C3, Nat.eqb_refl. reflexivity.
      + exact S2.
  Qed.

  (** Top-level loop. *)
  Definition Good (st : list bool * list Z) (H : list (nat * nat)) (todo : list nat) : Prop :=
    Inv st H /\ forall w, w < n -> valid_at (fst st) w = false ->
      (cnt_at (snd st) w = 0%Z /\ settled st H w) \/
      (In w todo /\ cnt_at (snd st) w = Z.of_nat (deg w) /\ forall u, ~ In (w, u) H).

  Lemma aremove_loop : forall fuel todo st H, count_true (fst st) < fuel -> Good st H todo ->
    (forall v, In v todo -> v < n) ->
    exists st' H', ofold (fun st v => obind (aget (fst st) v) (fun b =>
              if negb b then aclear nb m fuel v st else Ok st)) todo st = Ok st'
      /\ Good st' H' [] /\ (forall w, valid_at (fst st') w = true -> valid_at (fst st) w = true).
  Proof.
    intros fuel. induction todo as [|v todo IH]; intros st H Hf [I G] R.
    - exists st, H. cbn [ofold]. split; auto. split; [|auto]. split; auto.
    - cbn [ofold]. assert (Hv : v < n) by (apply R; left; auto).
      rewrite (aget_ok (fst st) v false) by (rewrite (inv_lv _ _ I); auto). cbn [obind].
      destruct (valid_at (fst st) v) eqn:EV; cbn [negb].
      + cbn [obind]. apply (IH st H); auto; [|intros; apply R; right; auto].
        split; auto. intros w Hw Ew. destruct (G w Hw Ew) as [A|(A & B & C)]; [left; auto|right].
        repeat split; auto. destruct A as [A|A]; auto. congruence.
      + destruct (aclear_spec fuel v st H I Hv EV Hf) as (st' & H' & E & EF & C0 & S0).
        { destruct (G v Hv EV) as [[A B]|(A & B & C)]; split.
          - auto.
          - intros; congruence.
          - intros Z0 u Hu. rewrite B in Z0. unfold deg in Z0. destruct (nb v); [inversion Hu|cbn in Z0; lia].
          - intros _. auto. }
        rewrite E. cbn [obind]. destruct (IH st' H') as (st2 & H2 & E2 & G2 & M2); auto.
        * pose proof (ef_ct _ _ _ _ _ EF). lia.
        * split; [apply (ef_inv _ _ _ _ _ EF)|]. intros w Hw Ew.
          destruct (Nat.eq_dec w v) as [->|Nw]; [left; auto|].
          destruct (valid_at (fst st) w) eqn:E1.
          -- left. apply (ef_new _ _ _ _ _ EF); auto.
          -- destruct (ef_frame _ _ _ _ _ EF w Hw Nw E1) as [A B].
             destruct (G w Hw E1) as [[A1 B1]|(A1 & B1 & C1)].
             ++ left. split; [congruence|]. eapply settled_mono; eauto.
                ** apply (ef_incl _ _ _ _ _ EF).
                ** apply (ef_mono _ _ _ _ _ EF).
             ++ right. repeat split; [|congruence|].
                ** destruct A1 as [A1|A1]; [congruence|auto].
                ** intros u Hu. apply (C1 u). auto.
        * intros; apply R; right; auto.
        * exists st2, H2. split; auto. split; auto. intros w Ew. apply (ef_mono _ _ _ _ _ EF). auto.
  Qed.
End Graph.

(** The set characterisation of the result. *)
Definition closed_set (n : nat) (nb : nat -> list nat) (m : Z) (S : nat -> bool) : Prop :=
  forall u, u < n -> S u = true ->
    (m <= Z.of_nat (countb S (nb u)))%Z \/ (forall w, In w (nb u) -> S w = true).

Lemma countb_full : forall (T : nat -> bool) l, countb T l = length l <-> forall x, In x l -> T x = true.
Proof.
  unfold countb. intros T. induction l as [|y l IH]; simpl.
  - split; [intros _ x []|auto].
  - pose proof (filter_len_le T l). destruct (T y) eqn:E; simpl; split.
    + intros H1 x [<-|Hx]; auto. apply IH; auto.
    + intros H1. f_equal. apply IH. intros; apply H1; auto.
    + intros; lia.
    + intros H1. rewrite (H1 y (or_introl eq_refl)) in E. discriminate.
Qed.

Section Result.
  Variable n : nat.
  Variable nb : nat -> list nat.
  Variable m : Z.
  Hypothesis nb_range : forall v u, v < n -> In u (nb v) -> u < n.
  Hypothesis nb_nodup : forall v, v < n -> NoDup (nb v).
  Hypothesis nb_sym : forall v u, v < n -> u < n -> In u (nb v) -> In v (nb u).

  Lemma aremove_gen : forall order valid counts T,
    length valid = n -> length counts = n ->
    (forall u, u < n -> nth u counts 0%Z = Z.of_nat (length (nb u))) ->
    (forall v, In v order <-> v < n) ->
    (forall u, u < n -> T u = true -> nth u valid false = true) -> closed_set n nb m T ->
    exists valid', aremove nb m order valid counts = Ok valid' /\ length valid' = n /\
      (forall u, nth u valid' false = true -> nth u valid false = true) /\
      closed_set n nb m (fun u => nth u valid' false) /\
      (forall u, u < n -> T u = true -> nth u valid' false = true).
  Proof.
    intros order valid counts T LV LC CN OR TV TC.
    assert (TG : forall u, u < n -> T u = true ->
       (m <= Z.of_nat (deg_in nb T u))%Z \/ deg_in nb T u = deg nb u).
    { intros u Hu Et. destruct (TC u Hu Et) as [A|A]; [left; exact A|right].
      unfold deg_in, deg. apply countb_full. auto. }
    assert (I0 : Inv n nb m T (valid, counts) []).
    { constructor; cbn [fst snd]; auto.
      - constructor.
      - intros w u [].
      - intros u Hu _. rewrite CN by auto. unfold indeg, deg, countb. simpl. lia. }
    destruct (aremove_loop n nb m nb_range nb_nodup nb_sym T TG (S (length valid)) order (valid, counts) []) as
      ((val' & cnt') & H' & E & [I' G'] & M).
    - cbn [fst]. assert (forall l, count_true l <= length l).
      { induction l as [|b l IHl]; [reflexivity|]. rewrite count_true_cons. cbn [length]. destruct b; cbn [b2n]; lia. }
      specialize (H valid). lia.
    - split; auto. intros w Hw Ew. right. split; [apply OR; auto|]. split; [cbn [snd]; apply CN; auto|]. intros u [].
    - intros v Hv. apply OR; auto.
    - exists val'. unfold aremove. rewrite E. split; [reflexivity|]. cbn [fst snd] in *.
      split; [apply (inv_lv _ _ _ _ _ _ I')|]. split; [exact M|]. split.
      + intros u Hu Eu.
        assert (SET : forall w, In w (nb u) -> nth w val' false = false -> In (w, u) H').
        { intros w Hw Ew. assert (Wn : w < n) by (eapply nb_range; eauto).
          destruct (G' w Wn Ew) as [[_ Sw]|[[] _]].
          destruct (Sw u) as [A|A]; auto. cbn [fst] in A. congruence. }
        destruct (inv_m _ _ _ _ _ _ I' u Hu Eu) as [Z0|Mm].
        * right. intros w Hw. destruct (nth w val' false) eqn:Ew; auto. exfalso.
          specialize (SET w Hw Ew). apply sources_in in SET. rewrite indeg_sources in Z0.
          destruct (sources H' u); [inversion SET|discriminate].
        * left. rewrite (inv_cnt _ _ _ _ _ _ I' u Hu Eu) in Mm. cbn [fst snd] in *.
          (* deg - indeg <= number of valid neighbours *)
          assert (LE : deg nb u <= countb (fun w => nth w val' false) (nb u) + indeg H' u).
          { unfold deg, countb. rewrite indeg_sources. rewrite <- app_length.
            apply NoDup_incl_length; [apply nb_nodup; auto|].
            intros w Hw. apply in_app_iff. destruct (nth w val' false) eqn:Ew.
            - left. apply filter_In. auto.
            - right. apply sources_in. auto. }
          lia.
      + intros u Hu Et. apply (inv_T _ _ _ _ _ _ I'); auto.
  Qed.

  (** Result: the greatest closed subset of the initially valid sites. *)
  Lemma aremove_greatest : forall order valid counts,
    length valid = n -> length counts = n ->
    (forall u, u < n -> nth u counts 0%Z = Z.of_nat (length (nb u))) ->
    (forall v, In v order <-> v < n) ->
    exists valid', aremove nb m order valid counts = Ok valid' /\ length valid' = n /\
      (forall u, nth u valid' false = true -> nth u valid false = true) /\
      closed_set n nb m (fun u => nth u valid' false) /\
      (forall T, (forall u, u < n -> T u = true -> nth u valid false = true) -> closed_set n nb m T ->
         forall u, u < n -> T u = true -> nth u valid' false = true).
  Proof.
    intros order valid counts LV LC CN OR.
    destruct (aremove_gen order valid counts (fun _ => false) LV LC CN OR) as (val' & E & L & M & C & _).
    - discriminate.
    - intros u _ F. discriminate.
    - exists val'. repeat split; auto. intros T TV TC.
      destruct (aremove_gen order valid counts T LV LC CN OR TV TC) as (val2 & E2 & _ & _ & _ & R).
      assert (val2 = val') by congruence. subst. auto.
  Qed.
End Result.
