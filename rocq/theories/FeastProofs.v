(* The FEAST strategy stays inside its buffers and its loops end, under the documented behaviour
   of MKL (C49). *)
From Verif Require Import Base Feast.
Local Open Scope Z_scope.

Section Contract.
  Variable mkl : nat -> Z -> Z -> bool -> report.
  Variable n need : Z.
  Hypothesis Hn : 1 <= n.
  Hypothesis Hneed : need <= n.
  (** Loops are counted up from zero, the suggested subspace and the number of eigenvalues are at
      most the subspace size given, code 3 ("subspace too small") comes only when it is smaller
      than needed and leaves the size as it was, and code 0 means that eigenvalues were found. *)
  Hypothesis Hmkl : forall k m0 b, 0 <= m0 -> let r := mkl k n m0 b in
    0 <= r_loops r /\ 0 <= r_suggested r <= m0 /\ 0 <= r_final r <= m0 /\
    (r_code r = 3 -> m0 < need /\ r_suggested r = m0) /\ (r_code r = 0 -> 1 <= r_final r).

  Record fits (st : fstate) : Prop := {
    fit_suggested : 0 <= r_suggested (f_info st) \/ f_values st = 0;
    fit_values : 0 <= f_values st; fit_below : f_values st <> 0 -> r_suggested (f_info st) <= f_values st;
    fit_residual : f_residual st = f_values st; fit_cols : f_values st <> 0 -> f_cols st = f_values st /\ f_rows st = n;
    fit_empty : f_values st = 0 -> f_rows st * f_cols st = 0
  }.
  Definition good_guess (st : fstate) : Prop := Z.min 2 n <= f_guess (f_cfg st).
  Definition cap (g : Z) : Z := if (n <? g) || (g <? 0) then n else g.

  Record called (st st' : fstate) (m0 : Z) : Prop := {
    cl_fits : fits st'; cl_m0 : 0 <= m0;
    cl_guess : f_guess (f_cfg st') = if f_values st =? 0 then cap (f_guess (f_cfg st)) else f_guess (f_cfg st);
    cl_cfg : f_recycle (f_cfg st') = f_recycle (f_cfg st) /\ f_max_loops (f_cfg st') = f_max_loops (f_cfg st);
    cl_flags : f_recycle_warning st' = f_recycle_warning st /\ f_warn_loops st' = f_warn_loops st /\ f_size_warning st' = f_size_warning st;
    cl_info : exists k b, f_info st' = mkl k n m0 b;
    cl_below : m0 <= f_values st';
    cl_kept : f_values st <> 0 -> f_values st' = f_values st;
    cl_fresh : f_values st = 0 -> m0 = cap (f_guess (f_cfg st)) /\ f_values st' = m0
  }.

  Lemma cap_range : forall g, 0 <= cap g <= n.
  Proof. intros g. unfold cap. destruct (Z.ltb_spec n g), (Z.ltb_spec g 0); cbn; lia. Qed.

  Lemma call_ok : forall st, fits st -> exists st' m0, call_feast mkl n st = FDone st' /\ called st st' m0.
  Proof.
    intros st F. unfold call_feast. destruct (Z.eqb_spec (f_values st) 0) as [E|E].
    - cbn [f_residual with_guess f_rows f_cols f_cfg f_info f_values f_guess f_recycle f_max_loops r_suggested f_recycle_warning f_warn_loops f_size_warning f_calls].
      fold (cap (f_guess (f_cfg st))). pose proof (cap_range (f_guess (f_cfg st))) as Hc.
      rewrite (fit_residual _ F), E. cbn [Z.eqb].
      cbn [f_residual with_guess f_rows f_cols f_cfg f_info f_values f_guess f_recycle f_max_loops r_suggested f_recycle_warning f_warn_loops f_size_warning f_calls].
      rewrite (fit_empty _ F E). cbn [Z.eqb].
      cbn [f_residual with_guess f_rows f_cols f_cfg f_info f_values f_guess f_recycle f_max_loops r_suggested f_recycle_warning f_warn_loops f_size_warning f_calls].
      rewrite !Z.ltb_irrefl. cbn [orb]. eexists _, (cap (f_guess (f_cfg st))). split; [reflexivity|].
      match goal with |- context [mkl ?k n ?m ?b] => generalize (Hmkl k m b ltac:(lia)); generalize b end. intros b (H1 & H2 & H3 & H4 & H5).
      constructor; cbn; auto; try lia.
      + constructor; cbn; auto; try lia.
      + rewrite E. reflexivity.
      + eauto.
    - destruct (fit_cols _ F E) as (Ec & Er). rewrite (fit_residual _ F).
      destruct (Z.eqb_spec (f_values st) 0) as [?|_]; [congruence|]. pose proof (fit_values _ F). pose proof (fit_below _ F E).
      assert (0 <= r_suggested (f_info st)) as Hs0 by (destruct (fit_suggested _ F); lia).
      rewrite Ec, Er. destruct (Z.eqb_spec (n * f_values st) 0) as [?|_]; [nia|].
      destruct (Z.ltb_spec (f_values st) (r_suggested (f_info st))); [lia|]. rewrite (fit_residual _ F).
      destruct (Z.ltb_spec (f_values st) (r_suggested (f_info st))); [lia|]. rewrite Ec, Er.
      destruct (Z.ltb_spec (n * f_values st) (n * r_suggested (f_info st))); [nia|]. cbn [orb].
      eexists _, (r_suggested (f_info st)). split; [reflexivity|].
      match goal with |- context [mkl ?k n ?m ?b] => generalize (Hmkl k m b ltac:(lia)); generalize b end. intros b (Q1 & Q2 & Q3 & Q4 & Q5).
      constructor; cbn; auto; try lia.
      + constructor; cbn; auto; try lia.
      + destruct (Z.eqb_spec (f_values st) 0); congruence.
      + eauto.
  Qed.

  Lemma clear_fits : forall st, fits (force_clear st).
  Proof. intros st. constructor; cbn; auto; lia. Qed.
  Lemma guess_fits : forall st g, fits st -> fits (with_guess st g).
  Proof. intros st g [? ? ? ? ? ?]. constructor; auto. Qed.
  Lemma flags_fits : forall st a b c, fits st -> fits (with_flags st a b c).
  Proof. intros st a b c [? ? ? ? ? ?]. constructor; auto. Qed.

  Lemma enlarge_more : forall g, 2 <= g -> g + 1 <= enlarge g.
  Proof. intros g Hg. unfold enlarge. rewrite Z.quot_div_nonneg by lia. apply Z.div_le_lower_bound; lia. Qed.
  Lemma enlarge_nonneg : forall g, 0 <= g -> g <= enlarge g.
  Proof. intros g Hg. unfold enlarge. rewrite Z.quot_div_nonneg by lia. apply Z.div_le_lower_bound; lia. Qed.

  Lemma cap_good : forall g, Z.min 2 n <= g -> Z.min 2 n <= cap g <= n.
  Proof. intros g Hg. unfold cap. destruct (Z.ltb_spec n g), (Z.ltb_spec g 0); cbn; lia. Qed.
  Lemma cap_small : forall g, 0 <= g <= n -> cap g = g.
  Proof. intros g Hg. unfold cap. destruct (Z.ltb_spec n g), (Z.ltb_spec g 0); cbn; lia. Qed.

  Definition keeps (st st' : fstate) : Prop := f_max_loops (f_cfg st') = f_max_loops (f_cfg st) /\ f_recycle (f_cfg st') = f_recycle (f_cfg st).
  Definition gg (st : fstate) : Prop := Z.min 2 n <= f_guess (f_cfg st).
  (** After a call: the buffers fit and the last report is one of MKL for a subspace that fits. *)
  Record good (st : fstate) : Prop := {
    gd_fits : fits st; gd_guess : gg st;
    gd_info : exists k m0 b, f_info st = mkl k n m0 b /\ 0 <= m0 <= f_values st
  }.
  Lemma called_good : forall st st' m0, called st st' m0 -> gg st \/ (f_guess (f_cfg st) < 0 /\ f_values st = 0) -> good st'.
  Proof.
    intros st st' m0 C Hg. constructor.
    - apply C.
    - unfold gg in *. rewrite (cl_guess _ _ _ C). destruct (Z.eqb_spec (f_values st) 0) as [E|E].
      + destruct Hg as [Hg|(Hg & _)]; [apply cap_good; exact Hg|]. unfold cap. destruct (Z.ltb_spec (f_guess (f_cfg st)) 0); [|lia].
        rewrite orb_true_r. lia.
      + destruct Hg as [Hg|(_ & Hg)]; [auto|congruence].
    - destruct (cl_info _ _ _ C) as (k & b & E). exists k, m0, b. split; [exact E|]. pose proof (cl_below _ _ _ C). pose proof (cl_m0 _ _ _ C). lia.
  Qed.
  Lemma good_facts : forall st, good st -> 0 <= r_loops (f_info st) /\ 0 <= r_final (f_info st) <= f_values st /\
    (r_code (f_info st) = 0 -> 1 <= r_final (f_info st)).
  Proof.
    intros st G. destruct (gd_info _ G) as (k & m0 & b & -> & Hm). destruct (Hmkl k m0 b ltac:(lia)) as (H1 & H2 & H3 & H4 & H5). repeat split; auto; lia.
  Qed.

  Lemma resize_ok : forall fuel st, good st -> Z.max 0 (n - f_guess (f_cfg st)) < Z.of_nat fuel ->
    resize_loop mkl fuel n st = FThrow \/ exists st', resize_loop mkl fuel n st = FDone st' /\ good st' /\ keeps st st' /\ r_code (f_info st') <> 3 /\
      (r_code (f_info st) = 3 -> r_code (f_info st') = 0).
  Proof.
    induction fuel as [|fuel IH]; intros st G Hf; [lia|]. cbn [resize_loop].
    destruct (Z.eqb_spec (r_code (f_info st)) 3) as [E3|E3]; [|right; exists st; split; [reflexivity|]; split; [exact G|]; split; [split; reflexivity|]; split; [exact E3|]; intros; congruence].
    set (st1 := force_clear (with_guess st (enlarge (f_guess (f_cfg st))))).
    destruct (call_ok st1 (clear_fits _)) as (st' & m0 & Ec & C). rewrite Ec.
    pose proof (gd_guess _ G) as Hg. unfold gg in Hg.
    assert (Eg : f_guess (f_cfg st1) = enlarge (f_guess (f_cfg st))) by reflexivity.
    pose proof (enlarge_nonneg (f_guess (f_cfg st)) ltac:(lia)) as He.
    assert (G' : good st') by (eapply called_good; [exact C|left; unfold gg; rewrite Eg; lia]).
    destruct (negb (r_code (f_info st') =? 3) && negb (r_code (f_info st') =? 0)) eqn:Et; [now left|].
    destruct (Z.eq_dec (r_code (f_info st')) 3) as [E3'|E3'].
    - destruct (cl_fresh _ _ _ C eq_refl) as (Em & _). destruct (cl_info _ _ _ C) as (k & b & Ei). pose proof (cl_m0 _ _ _ C) as Hm.
      destruct (Hmkl k m0 b Hm) as (_ & _ & _ & H3 & _). rewrite Ei in E3'. destruct (H3 E3') as (Hlt & _). rewrite Eg in Em.
      pose proof (cl_guess _ _ _ C) as Eg'. replace (f_values st1 =? 0) with true in Eg' by reflexivity. rewrite Eg in Eg'.
      assert (Ecap : cap (enlarge (f_guess (f_cfg st))) = enlarge (f_guess (f_cfg st))).
      { unfold cap in *. destruct (Z.ltb_spec n (enlarge (f_guess (f_cfg st)))), (Z.ltb_spec (enlarge (f_guess (f_cfg st))) 0); cbn in *; lia. }
      assert (2 <= f_guess (f_cfg st)) by lia. pose proof (enlarge_more (f_guess (f_cfg st)) ltac:(lia)).
      destruct (IH st' G' ltac:(lia)) as [Hr|(st'' & Hr & G'' & Hk & Hc & Hz)]; [now left|]. right. exists st''. split; [auto|]. split; [auto|]. split.
      { destruct Hk as (K1 & K2), (cl_cfg _ _ _ C) as (K3 & K4). split; [rewrite K1, K4|rewrite K2, K3]; reflexivity. }
      split; [auto|]. intros _. apply Hz. now rewrite Ei.
    - destruct fuel as [|fuel].
      + cbn. destruct (Z.eqb_spec (r_code (f_info st')) 3); [congruence|]. right. exists st'. split; [auto|]. split; [auto|]. split; [split; apply (cl_cfg _ _ _ C)|]. split; [auto|]. intros _.
        cbn in Et. destruct (Z.eqb_spec (r_code (f_info st')) 0); [auto|discriminate].
      + cbn [resize_loop]. destruct (Z.eqb_spec (r_code (f_info st')) 3); [congruence|]. right. exists st'. split; [auto|]. split; [auto|]. split; [split; apply (cl_cfg _ _ _ C)|]. split; [auto|]. intros _.
        cbn in Et. destruct (Z.eqb_spec (r_code (f_info st')) 0); [auto|discriminate].
  Qed.

  Definition potential (st : fstate) : Z :=
    (2 * f_max_loops (f_cfg st) - f_warn_loops st + 1) * (2 * (n + 2)) + 2 * Z.max 0 (n - f_guess (f_cfg st))
    + (if (r_code (f_info st) =? 3) && negb (r_suggested (f_info st) =? f_guess (f_cfg st)) then 1 else 0).

  Lemma recycle_ok : forall fuel st, good st -> 1 <= f_max_loops (f_cfg st) -> f_warn_loops st <= 2 * f_max_loops (f_cfg st) ->
    potential st < Z.of_nat fuel ->
    recycle_loop mkl fuel n st = FThrow \/ exists st', recycle_loop mkl fuel n st = FDone st' /\ good st' /\ keeps st st' /\ r_code (f_info st') <> 3 /\
      r_loops (f_info st') < f_max_loops (f_cfg st').
  Proof.
    induction fuel as [|fuel IH]; intros st G Hmax Hw Hf.
    { exfalso. unfold potential in Hf. destruct (_ && _) in Hf; nia. }
    cbn [recycle_loop]. destruct ((f_max_loops (f_cfg st) <=? r_loops (f_info st)) || (r_code (f_info st) =? 3)) eqn:Ec.
    2: { right. exists st. apply orb_false_iff in Ec as (E1 & E2). apply Z.leb_gt in E1. apply Z.eqb_neq in E2. split; [reflexivity|]. split; [exact G|]. split; [split; reflexivity|]. auto. }
    cbn [f_cfg with_flags f_info f_warn_loops]. set (wl := f_warn_loops st + r_loops (f_info st)).
    destruct (Z.ltb_spec (2 * f_max_loops (f_cfg st)) wl) as [|Hwl]; [now left|].
    pose proof (good_facts st G) as (Hl0 & _). pose proof (gd_guess _ G) as Hg. unfold gg in Hg.
    set (g1 := if r_suggested (f_info st) =? f_guess (f_cfg st) then enlarge (f_guess (f_cfg st)) else f_guess (f_cfg st)).
    set (st1 := if r_suggested (f_info st) =? f_guess (f_cfg st) then with_guess (with_flags st true wl (f_size_warning st)) (enlarge (f_guess (f_cfg st))) else with_flags st true wl (f_size_warning st)).
    pose proof (enlarge_nonneg (f_guess (f_cfg st)) ltac:(lia)) as He.
    assert (E1 : f_guess (f_cfg (force_clear st1)) = g1 /\ f_max_loops (f_cfg (force_clear st1)) = f_max_loops (f_cfg st) /\ f_warn_loops (force_clear st1) = wl).
    { unfold st1, g1. destruct (r_suggested (f_info st) =? f_guess (f_cfg st)); (split; [reflexivity|split; reflexivity]). }
    destruct E1 as (Eg & Em & Ew). assert (Hg1 : f_guess (f_cfg st) <= g1) by (unfold g1; destruct (r_suggested (f_info st) =? f_guess (f_cfg st)); lia).
    destruct (call_ok (force_clear st1) (clear_fits _)) as (st' & m0 & Ecl & C). rewrite Ecl.
    assert (G' : good st') by (eapply called_good; [exact C|left; unfold gg; rewrite Eg; lia]).
    destruct (cl_cfg _ _ _ C) as (_ & Em'). rewrite Em in Em'. destruct (cl_flags _ _ _ C) as (_ & Ew' & _). rewrite Ew in Ew'.
    pose proof (cl_guess _ _ _ C) as Eg'. replace (f_values (force_clear st1) =? 0) with true in Eg' by reflexivity. rewrite Eg in Eg'.
    destruct (cl_fresh _ _ _ C eq_refl) as (Em0 & _). rewrite Eg in Em0. destruct (cl_info _ _ _ C) as (k & b & Ei). pose proof (cl_m0 _ _ _ C) as Hm.
    destruct (Hmkl k m0 b Hm) as (_ & _ & _ & H3 & _).
    assert (Hpot : potential st' < potential st).
    { assert (Hflag : (if (r_code (f_info st') =? 3) && negb (r_suggested (f_info st') =? f_guess (f_cfg st')) then 1 else 0) = 0).
      { destruct (Z.eqb_spec (r_code (f_info st')) 3) as [E3|]; [|reflexivity]. rewrite Ei in *. destruct (H3 E3) as (_ & ->). rewrite Eg', <- Em0, Z.eqb_refl. reflexivity. }
      unfold potential. rewrite Hflag, Em', Ew', Eg'.
      apply orb_true_iff in Ec as [El|E3].
      - apply Z.leb_le in El. pose proof (cap_good g1 ltac:(lia)). match goal with |- context [if ?b then 1 else 0] => assert (Hflag1 : 0 <= (if b then 1 else 0) <= 1) by (destruct b; lia); revert Hflag1; generalize (if b then 1 else 0) end. intros flag Hflag1.
        unfold wl in *. nia.
      - rewrite E3. apply Z.eqb_eq in E3. destruct (gd_info _ G) as (k0 & m1 & b0 & Ei0 & Hm1). destruct (Hmkl k0 m1 b0 ltac:(lia)) as (_ & _ & _ & H3' & _).
        rewrite <- Ei0 in H3'. destruct (H3' E3) as (Hlt & Es). unfold g1 in *. destruct (Z.eqb_spec (r_suggested (f_info st)) (f_guess (f_cfg st))) as [Esg|Esg].
        + cbn [andb negb]. assert (2 <= f_guess (f_cfg st)) by lia. pose proof (enlarge_more (f_guess (f_cfg st)) ltac:(lia)) as Hmore.
          assert (f_guess (f_cfg st) + 1 <= cap (enlarge (f_guess (f_cfg st)))).
          { unfold cap. destruct (Z.ltb_spec n (enlarge (f_guess (f_cfg st)))), (Z.ltb_spec (enlarge (f_guess (f_cfg st))) 0); cbn; lia. }
          unfold wl in *. nia.
        + cbn [andb negb]. assert (n - cap (f_guess (f_cfg st)) <= Z.max 0 (n - f_guess (f_cfg st))).
          { unfold cap. destruct (Z.ltb_spec n (f_guess (f_cfg st))), (Z.ltb_spec (f_guess (f_cfg st)) 0); cbn; lia. }
          unfold wl in *. nia. }
    assert (Kr : f_recycle (f_cfg (force_clear st1)) = f_recycle (f_cfg st)) by (unfold st1; destruct (r_suggested (f_info st) =? f_guess (f_cfg st)); reflexivity).
    destruct (cl_cfg _ _ _ C) as (Kr' & _).
    destruct (IH st' G' ltac:(lia) ltac:(lia) ltac:(lia)) as [Hr|(st'' & Hr & G'' & (K1 & K2) & Hc & Hz)]; [now left|]. right. exists st''.
    split; [auto|]. split; [auto|]. split; [split; congruence|]. auto.
  Qed.

  (** What [eigenvectors()] maps: [f_rows] x [r_final] values. *)
  Definition fits_view (st : fstate) : Prop := f_rows st = n /\ r_final (f_info st) <= f_cols st.
  Definition solve_fuel (size max : Z) : Z := (2 * max + 1) * (2 * (size + 2)) + 3 * size + 4.
  Lemma solve_ok : forall st, fits st -> gg st \/ (f_guess (f_cfg st) < 0 /\ f_values st = 0) -> 1 <= f_max_loops (f_cfg st) ->
    forall fuel, solve_fuel n (f_max_loops (f_cfg st)) <= Z.of_nat fuel ->
      solve mkl fuel n st = FThrow \/
      (solve mkl fuel n st = FEmptyMax /\ exists k m0 b, r_code (mkl k n m0 b) = 1) \/
      exists st', solve mkl fuel n st = FDone st' /\ fits st' /\ gg st' /\ keeps st st' /\ fits_view st' /\
        (r_code (f_info st') = 0 \/ r_code (f_info st') = 1) /\ 1 <= r_final (f_info st') <= f_values st'.
  Proof.
    intros st F Hg Hmax. unfold solve.
    set (st0 := with_flags st false 0 false).
    destruct (call_ok st0 (flags_fits _ _ _ _ F)) as (st1 & m0 & Ec & C). rewrite Ec. cbn [fbind].
    assert (G1 : good st1) by (eapply called_good; [exact C|exact Hg]).
    destruct (cl_cfg _ _ _ C) as (Er1 & Em1). change (f_max_loops (f_cfg st0)) with (f_max_loops (f_cfg st)) in Em1. change (f_recycle (f_cfg st0)) with (f_recycle (f_cfg st)) in Er1.
    destruct (cl_flags _ _ _ C) as (_ & Ew & _). change (f_warn_loops st0) with 0 in Ew.
    (* every state the tail sees *)
    assert (Tail : forall st2, good st2 -> keeps st st2 -> forall fuel, Z.max 0 (n - f_guess (f_cfg st2)) < Z.of_nat fuel ->
      forall r, r = fbind (if r_code (f_info st2) =? 0 then FDone st2
           else if r_code (f_info st2) =? 3 then resize_loop mkl fuel n (with_flags st2 (f_recycle_warning st2) (f_warn_loops st2) true)
           else if r_code (f_info st2) =? 1 then FDone st2
           else FThrow) (fun st =>
    if r_final (f_info st) =? 0 then FEmptyMax
    else FDone (if f_recycle_warning st
                then with_info st (Report (r_loops (f_info st) + f_warn_loops st) (r_suggested (f_info st)) (r_final (f_info st)) (r_code (f_info st)))
                else st)) -> r = FThrow \/ (r = FEmptyMax /\ exists k m0 b, r_code (mkl k n m0 b) = 1) \/
      exists st', r = FDone st' /\ fits st' /\ gg st' /\ keeps st st' /\ fits_view st' /\
        (r_code (f_info st') = 0 \/ r_code (f_info st') = 1) /\ 1 <= r_final (f_info st') <= f_values st').
    { intros st2 G2 Em2 fuel Hf r ->.
      assert (End : forall st3, good st3 -> keeps st st3 -> r_code (f_info st3) = 0 \/ r_code (f_info st3) = 1 ->
        let r := if r_final (f_info st3) =? 0 then FEmptyMax
          else FDone (if f_recycle_warning st3
                then with_info st3 (Report (r_loops (f_info st3) + f_warn_loops st3) (r_suggested (f_info st3)) (r_final (f_info st3)) (r_code (f_info st3)))
                else st3) in
        r = FThrow \/ (r = FEmptyMax /\ exists k m0 b, r_code (mkl k n m0 b) = 1) \/
        exists st', r = FDone st' /\ fits st' /\ gg st' /\ keeps st st' /\ fits_view st' /\
        (r_code (f_info st') = 0 \/ r_code (f_info st') = 1) /\ 1 <= r_final (f_info st') <= f_values st').
      { intros st3 G3 Em3 Hcode. cbv zeta. destruct (good_facts st3 G3) as (_ & Hfin & Hpos). destruct (Z.eqb_spec (r_final (f_info st3)) 0) as [E0|E0].
        - right. left. split; [reflexivity|]. destruct Hcode as [Hc|Hc]; [specialize (Hpos Hc); lia|].
          destruct (gd_info _ G3) as (k & m & b & Ei & _). exists k, m, b. now rewrite <- Ei.
        - right. right. destruct (f_recycle_warning st3).
          + eexists. split; [reflexivity|]. destruct (gd_fits _ G3). split; [constructor; auto|]. split; [exact (gd_guess _ G3)|]. split; [exact Em3|].
            destruct (fit_cols0 ltac:(lia)) as (? & ?). split; [split; cbn; auto; lia|]. cbn. split; auto; lia.
          + exists st3. split; [reflexivity|]. split; [apply G3|]. split; [apply G3|]. split; [exact Em3|].
            destruct (fit_cols _ (gd_fits _ G3) ltac:(lia)) as (? & ?). split; [split; auto; lia|]. split; auto; lia. }
      destruct (Z.eqb_spec (r_code (f_info st2)) 0) as [E0|E0]; [apply (End st2 G2 Em2 (or_introl E0))|].
      destruct (Z.eqb_spec (r_code (f_info st2)) 3) as [E3|E3].
      - set (st3 := with_flags st2 _ _ _). assert (G3 : good st3) by (destruct G2 as [[]]; constructor; auto; constructor; auto).
        destruct (resize_ok fuel st3 G3 Hf) as [Hr|(st' & Hr & G' & (K1 & K2) & Hc & Hz)]; rewrite Hr; [now left|]. cbn [fbind]. apply (End st' G').
        + destruct Em2. split; cbn in *; congruence.
        + left. apply Hz. exact E3.
      - destruct (Z.eqb_spec (r_code (f_info st2)) 1) as [E1|E1]; [apply (End st2 G2 Em2 (or_intror E1))|now left]. }
    assert (Hgn : forall st', gg st' -> Z.max 0 (n - f_guess (f_cfg st')) <= n) by (unfold gg; intros; lia).
    intros fuel Hfuel.
    assert (Hp : 0 <= potential st1 <= (2 * f_max_loops (f_cfg st) + 1) * (2 * (n + 2)) + 2 * n + 1).
    { unfold potential. rewrite Em1, Ew. pose proof (Hgn st1 (gd_guess _ G1)).
      match goal with |- context [if ?b then 1 else 0] => assert (Hflag1 : 0 <= (if b then 1 else 0) <= 1) by (destruct b; lia); revert Hflag1; generalize (if b then 1 else 0) end. intros flag Hflag1. nia. }
    unfold solve_fuel in Hfuel.
    assert (Hf : potential st1 + n + 1 < Z.of_nat fuel) by lia.
    destruct (f_recycle (f_cfg st1)) eqn:Erec.
    - destruct (recycle_ok fuel st1 G1 ltac:(lia) ltac:(lia) ltac:(lia)) as [Hr|(st2 & Hr & G2 & (K1 & K2) & _)]; rewrite Hr; [now left|]. cbn [fbind].
      eapply (Tail st2 G2 ltac:(split; congruence) fuel); [|reflexivity]. pose proof (Hgn st2 (gd_guess _ G2)). lia.
    - cbn [fbind]. eapply (Tail st1 G1 ltac:(split; congruence) fuel); [|reflexivity]. pose proof (Hgn st1 (gd_guess _ G1)). lia.
  Qed.
End Contract.

(** Solving for a sequence of Hamiltonians, each announced with [change_hamiltonian]. *)
Fixpoint session (mkl : nat -> Z -> Z -> bool -> report) (fuel : nat) (st : fstate) (sizes : list Z) : fres :=
  match sizes with
  | [] => FDone st
  | n :: t => fbind (solve mkl fuel n (change_hamiltonian st)) (fun st => session mkl fuel st t)
  end.
