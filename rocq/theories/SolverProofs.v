(* Whose Hamiltonian the answers of a solver belong to (C50). *)
From Verif Require Import Base Scalar ModelState Solver.

Section SolverProofs.
  Variables Mdl H V : Type.
  Variable ham : Mdl -> Mdl * res H.
  Variable same_type : H -> H -> bool.
  Variable solve_for : H -> res V.
  Variable nonempty : V -> bool.
  Hypothesis stable : forall m m' h, ham m = (m', Ret h) -> ham m' = (m', Ret h).

  Notation values := (values Mdl H V solve_for).
  Notation bstep := (bstep Mdl H V ham same_type solve_for).
  Notation psolve := (psolve Mdl H V ham solve_for nonempty).
  Notation pstep := (pstep Mdl H V ham solve_for nonempty).
  Notation kstep := (kstep Mdl H ham).
  Notation expected := (expected Mdl H V ham solve_for).

  Definition loads (m : Mdl) : bool := match snd (ham m) with Ret _ => true | Raise => false end.
  Lemma loads_ok : forall m, loads m = true -> exists m' h, ham m = (m', Ret h).
  Proof. intros m E. unfold loads in E. destruct (ham m) as (m', [h|]); [eauto|discriminate]. Qed.
  (** The object was given a whole model that can be built, and nothing was changed in place
      since.  For the C++ eigensolver and KPM. *)
  Definition kept (b : bool) (o : sop Mdl) : bool :=
    match o with SetModel m => loads m | SetWave _ | Edit _ => false | Clear | Solve => b end.
  (** The results were dropped after the last change in place.  For the Python eigensolvers. *)
  Definition dropped (b : bool) (o : sop Mdl) : bool :=
    match o with SetModel _ | SetWave _ | Clear => true | Edit _ => false | Solve => b end.

  Record binv (st : bsolver Mdl H V) : Prop := {
    bi_strat : exists t, b_strat st = Some t /\ ham (b_model st) = (b_model st, Ret (t_ham t)) /\
      (b_solved st = true -> exists v, t_res t = Some v /\ solve_for (t_ham t) = Ret v)
  }.
  Lemma binv_step : forall st b o, b_strat st <> None -> (b = true -> binv st) ->
    b_strat (bstep st o) <> None /\ (kept b o = true -> binv (bstep st o)).
  Proof.
    intros st b o N I. destruct o as [m|f|f| |]; cbn [kept Solver.bstep b_strat].
    - unfold set_model. destruct (b_strat st) as [t|]; [|congruence]. destruct (ham m) as (m', [h|]) eqn:Em.
      + destruct (same_type (t_ham t) h); (split; [discriminate|]); intros _; constructor; cbn; eexists; (split; [reflexivity|]); cbn;
          (split; [exact (stable _ _ _ Em)|discriminate]).
      + split; [discriminate|]. unfold loads. rewrite Em. discriminate.
    - split; [exact N|discriminate].
    - split; [exact N|discriminate].
    - split; [exact N|]. intros E. destruct (I E) as [(t & Et & Eh & Es)]. constructor. exists t. cbn. split; [exact Et|]. split; [exact Eh|discriminate].
    - unfold solve. destruct (b_solved st) eqn:E; [auto|]. destruct (b_strat st) as [t'|] eqn:Et'; [|congruence].
      destruct (solve_for (t_ham t')) eqn:Ev; cbn.
      + split; [discriminate|]. intros Hb. destruct (I Hb) as [(t & Et & Eh & Es)]. rewrite Et' in Et. injection Et as ->.
        constructor. cbn. eexists. split; [reflexivity|]. cbn. split; [exact Eh|]. eauto.
      + rewrite Et'. split; [discriminate|exact I].
  Qed.
  Lemma binv_run : forall ops b st, b_strat st <> None -> (b = true -> binv st) ->
    fold_left kept ops b = true -> binv (fold_left bstep ops st).
  Proof.
    induction ops as [|o t IH]; intros b st N I W; [exact (I W)|]. cbn in W |- *. destruct (binv_step st b o N I) as (N' & I'). exact (IH _ _ N' I' W).
  Qed.
  Lemma binv_values : forall st, binv st -> snd (values st) = expected (b_model st).
  Proof.
    intros st [(t & Et & Eh & Es)]. unfold Solver.values, Solver.expected, solve. rewrite Eh. cbn [snd].
    destruct (b_solved st) eqn:E.
    - destruct (Es eq_refl) as (v & Ev & Ev'). cbn. rewrite Et, Ev, Ev'. reflexivity.
    - rewrite Et. destruct (solve_for (t_ham t)); reflexivity.
  Qed.
  Lemma binv_make : forall m st, make_solver Mdl H V ham m = Ret st -> binv st.
  Proof.
    intros m st E. unfold make_solver in E. destruct (ham m) as (m', [h|]) eqn:Em; [|discriminate]. injection E as <-.
    constructor. cbn. eexists. split; [reflexivity|]. cbn. split; [exact (stable _ _ _ Em)|discriminate].
  Qed.

  Definition pinv (st : psolver Mdl V) : Prop := forall v, p_vals st = Some v ->
    exists h, ham (p_model st) = (p_model st, Ret h) /\ solve_for h = Ret v.
  Lemma psolve_ok : forall st, pinv st -> snd (psolve st) = expected (p_model st) /\ pinv (fst (psolve st)).
  Proof.
    intros st I. unfold Solver.psolve, Solver.expected, pinv in *. destruct (p_vals st) as [v|] eqn:E.
    - destruct (I v eq_refl) as (h & Eh & Ev). destruct (nonempty v); rewrite Eh; cbn; rewrite Ev; cbn.
      + split; [reflexivity|]. rewrite E. exact I.
      + split; [reflexivity|]. intros x X. injection X as <-. eauto.
    - destruct (ham (p_model st)) as (m', [h|]) eqn:Eh; cbn; [|split; [reflexivity|discriminate]].
      destruct (solve_for h) eqn:Ev; cbn; (split; [reflexivity|]); [|discriminate].
      intros x X. injection X as <-. exists h. split; [exact (stable _ _ _ Eh)|exact Ev].
  Qed.
  Lemma pinv_step : forall st b o, (b = true -> pinv st) -> dropped b o = true -> pinv (pstep st o).
  Proof.
    intros st b o I W. destruct o as [m|f|f| |]; cbn in *; try (intros x X; discriminate X); try discriminate. apply psolve_ok. auto.
  Qed.
  Lemma pinv_run : forall ops b st, (b = true -> pinv st) -> fold_left dropped ops b = true -> pinv (fold_left pstep ops st).
  Proof.
    induction ops as [|o t IH]; intros b st I W; [exact (I W)|]. cbn in W |- *. apply (IH (dropped b o)); [|exact W]. intros E. exact (pinv_step st b o I E).
  Qed.

  Definition kinv (st : ksolver Mdl H) : Prop := ham (k_model st) = (k_model st, Ret (k_core st)).
  Lemma kinv_step : forall st b o, (b = true -> kinv st) -> kept b o = true -> kinv (kstep st o).
  Proof.
    intros st b o I W. destruct o as [m|f|f| |]; cbn in *; try discriminate; auto. destruct (loads_ok m W) as (m' & h & Em). rewrite Em. exact (stable _ _ _ Em).
  Qed.
  Lemma kinv_run : forall ops b st, (b = true -> kinv st) -> fold_left kept ops b = true -> kinv (fold_left kstep ops st).
  Proof.
    induction ops as [|o t IH]; intros b st I W; [exact (I W)|]. cbn in W |- *. apply (IH (kept b o)); [|exact W]. intros E. exact (kinv_step st b o I E).
  Qed.
  Lemma kinv_make : forall m st, make_kpm Mdl H ham m = Ret st -> kinv st.
  Proof.
    intros m st E. unfold make_kpm in E. destruct (ham m) as (m', [h|]) eqn:Em; [|discriminate]. injection E as <-. exact (stable _ _ _ Em).
  Qed.
End SolverProofs.

(** The class Model keeps the Hamiltonian it returned. *)
Lemma q_ham_stable : forall R P Shp Sy Fn F LS Sys H LH found lead_one finish real_ham complex_ham im
  (st st' : state R P Shp Sy Fn LS Sys H LH) h,
  q_ham R P Shp Sy Fn F LS Sys H LH found lead_one finish real_ham complex_ham im st = (st', Ret h) ->
  q_ham R P Shp Sy Fn F LS Sys H LH found lead_one finish real_ham complex_ham im st' = (st', Ret h).
Proof.
  intros R P Shp Sy Fn F LS Sys H LH found lead_one finish real_ham complex_ham im st st' h E. unfold q_ham in E.
  destruct (q_system R P Shp Sy Fn F LS Sys H LH found lead_one finish st) as (st1, [s|]) eqn:Es; [|discriminate].
  assert (Hs : st_sys st1 = Some s).
  { unfold q_system in Es. destruct (st_sys st) eqn:E0; [injection Es as <- <-; exact E0|].
    destruct (found _); [|discriminate]. destruct (snd (make_structure _ _ _ _ _ _ _ _ _ _ _)); [|discriminate].
    destruct (finish _ _); [|discriminate]. injection Es as <- <-. reflexivity. }
  assert (Hq : forall st2 : state R P Shp Sy Fn LS Sys H LH, st_sys st2 = Some s -> st_ham st2 = Some h ->
    q_ham R P Shp Sy Fn F LS Sys H LH found lead_one finish real_ham complex_ham im st2 = (st2, Ret h)).
  { intros st2 A B. unfold q_ham, q_system. rewrite A, B. reflexivity. }
  destruct (st_ham st1) eqn:Eh; [injection E as <- <-; apply Hq; auto|].
  destruct (fst (make_ham _ _ _ _ _ _ _ _ _ _ _ _ _)); [|discriminate]. injection E as <- <-. apply Hq; auto.
Qed.
