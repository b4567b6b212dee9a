(* Proofs about the model state machine (C20, C21). *)
From Verif Require Import Base Scalar Foundation Lattice SystemBuild ModelState.

Section Proofs.
  Variable R : scalar.
  Variable P : Type.
  Variable padd : P -> P -> P.
  Variable peqb : P -> P -> bool.
  Variables Shp Sy Fn : Type.
  Variable offset_ok : P -> bool.
  Variables F LS Sys H LH : Type.
  Notation config := (config R P Shp Sy Fn).
  Notation sconfig := (sconfig R P Shp Sy Fn).
  Variable found : sconfig -> res F.
  Variable lead_one : sconfig -> F -> Z * shape P Shp -> res LS.
  Variable finish : sconfig -> F -> res Sys.
  Variable real_ham : config -> Sys -> hres H.
  Variable complex_ham : config -> Sys -> res H.
  Variable lead_ham : config -> bool -> LS -> res LH.
  Variable im : mat R -> bool.
  Notation state := (state R P Shp Sy Fn LS Sys H LH).
  Notation obs := (obs P Shp LS Sys H LH).
  Notation do_call := (do_call R P padd peqb Shp Sy Fn offset_ok LS Sys H LH).
  Notation q_system := (q_system R P Shp Sy Fn F LS Sys H LH found lead_one finish).
  Notation q_ham := (q_ham R P Shp Sy Fn F LS Sys H LH found lead_one finish real_ham complex_ham im).
  Notation q_leads := (q_leads R P Shp Sy Fn F LS Sys H LH found lead_one finish real_ham complex_ham lead_ham im).
  Notation ask := (ask R P Shp Sy Fn F LS Sys H LH found lead_one finish real_ham complex_ham lead_ham im).
  Notation run := (run R P padd peqb Shp Sy Fn offset_ok F LS Sys H LH found lead_one finish real_ham complex_ham lead_ham im).
  Notation make_ham := (make_ham R P Shp Sy Fn Sys H real_ham complex_ham im).
  Notation static_complex := (static_complex R P Shp Sy Fn im).
  Notation configure := (configure padd peqb offset_ok).

  (** Same result up to the relations on Hamiltonians. *)
  Variable hsim : H -> H -> Prop.
  Variable lsim : LH -> LH -> Prop.
  Hypothesis hsim_refl : forall h, hsim h h.
  Hypothesis lsim_refl : forall h, lsim h h.

  Definition rsim {A} (r : A -> A -> Prop) (x y : res A) : Prop :=
    match x, y with Ret a, Ret b => r a b | Raise, Raise => True | _, _ => False end.
  Definition entry_sim (x y : option ((Z * shape P Shp) * LS * LH)) : Prop :=
    match x, y with Some (a, b, c), Some (a', b', c') => a = a' /\ b = b' /\ lsim c c' | None, None => True | _, _ => False end.
  Definition obs_sim (x y : obs) : Prop :=
    match x, y with
    | OSystem _ _ _ _ _ _ a, OSystem _ _ _ _ _ _ b => a = b
    | OHam _ _ _ _ _ _ a, OHam _ _ _ _ _ _ b => rsim hsim a b
    | OLeads _ _ _ _ _ _ a, OLeads _ _ _ _ _ _ b => rsim (Forall2 entry_sim) a b
    | _, _ => False
    end.

  (** Building a lead does not raise. *)
  Definition leads_build : Prop :=
    (forall c f sp, found c = Ret f -> In sp (s_leads c) -> exists l, lead_one c f sp = Ret l) /\
    (forall c b l, exists h, lead_ham c b l = Ret h).
  (** The complex build gives the same values as the real build, for every model. *)
  Definition type_insensitive : Prop :=
    (forall c s, match real_ham c s with
                 | HRet h => exists h', complex_ham c s = Ret h' /\ hsim h' h
                 | HRaise => complex_ham c s = Raise
                 | HComplex => True end) /\
    (forall c l x y, lead_ham c true l = Ret x -> lead_ham c false l = Ret y -> lsim x y).
  Definition never_override : Prop := forall c s, real_ham c s <> HComplex.

  Lemma emplace_ok : forall {A B} (f : A -> res B) l v, (forall x, In x l -> exists y, f x = Ret y) ->
    exists ys, emplace_all f l v = (v ++ ys, true) /\ length ys = length l /\ Forall2 (fun x y => f x = Ret y) l ys.
  Proof.
    intros A B f l. induction l as [|x l IH]; intros v Hf; cbn [emplace_all].
    - exists []. rewrite app_nil_r. auto.
    - destruct (Hf x (or_introl eq_refl)) as (y & E). rewrite E. destruct (IH (v ++ [y])) as (ys & E1 & E2 & E3); [intros z Hz; apply Hf; right; auto|].
      exists (y :: ys). rewrite E1. rewrite <- app_assoc. cbn. split; auto.
  Qed.

  Hypothesis HL : leads_build.
  Hypothesis HO : never_override \/ type_insensitive.

  Definition structures (c : sconfig) (f : F) : list LS := fst (emplace_all (lead_one c f) (s_leads c) []).
  Lemma structures_ok : forall c f, found c = Ret f -> emplace_all (lead_one c f) (s_leads c) [] = (structures c f, true) /\ length (structures c f) = length (s_leads c).
  Proof.
    intros c f E. destruct (emplace_ok (lead_one c f) (s_leads c) []) as (ys & E1 & E2 & _); [intros x Hx; apply (proj1 HL); auto|].
    unfold structures. rewrite E1. auto.
  Qed.
  Definition lead_hams (c : config) (b : bool) (ls : list LS) : list LH := fst (emplace_all (lead_ham c b) ls []).
  Lemma lead_hams_ok : forall c b ls, emplace_all (lead_ham c b) ls [] = (lead_hams c b ls, true) /\ Forall2 (fun x y => lead_ham c b x = Ret y) ls (lead_hams c b ls).
  Proof.
    intros c b ls. destruct (emplace_ok (lead_ham c b) ls []) as (ys & E1 & E2 & E3); [intros x Hx; apply (proj2 HL)|].
    unfold lead_hams. rewrite E1. auto.
  Qed.

  Record Inv (st : state) : Prop := {
    i_sys : forall s, st_sys st = Some s -> exists f, found (structure_of (st_cfg st)) = Ret f /\
              st_ls st = structures (structure_of (st_cfg st)) f /\ finish (structure_of (st_cfg st)) f = Ret s;
    i_ls : st_ls st <> [] -> exists f, found (structure_of (st_cfg st)) = Ret f /\ st_ls st = structures (structure_of (st_cfg st)) f;
    i_ham : forall h, st_ham st = Some h -> exists s, st_sys st = Some s /\ (snd (make_ham (st_cfg st) false s) = true -> st_over st = true) /\
             exists h', fst (make_ham (st_cfg st) false s) = Ret h' /\ hsim h h';
    i_lh : st_lh st <> [] -> exists s h, st_sys st = Some s /\ st_ham st = Some h /\
             Forall2 lsim (st_lh st) (lead_hams (st_cfg st) (static_complex (st_cfg st) || snd (make_ham (st_cfg st) false s)) (st_ls st));
    i_over : st_over st = true -> type_insensitive
  }.

  Lemma inv_fresh : forall c, Inv (fresh c).
  Proof.
    intros c. constructor; cbn [fresh st_sys st_ls st_ham st_lh st_over]; intros; try discriminate; congruence.
  Qed.

  Lemma q_system_ok : forall st, Inv st ->
    Inv (fst (q_system st)) /\ st_cfg (fst (q_system st)) = st_cfg st /\ st_over (fst (q_system st)) = st_over st /\
    snd (q_system st) = snd (q_system (fresh (st_cfg st))) /\
    (forall s, snd (q_system st) = Ret s -> st_sys (fst (q_system st)) = Some s).
  Proof.
    intros st I. unfold ModelState.q_system. cbn [fresh st_sys st_cfg st_ls].
    destruct (st_sys st) as [s|] eqn:Es.
    - destruct (i_sys st I s Es) as (f & Ef & El & Efi). rewrite Ef.
      cbn [make_structure]. destruct (structures_ok _ f Ef) as [E _]. rewrite E. cbn [fst snd]. rewrite Efi. cbn [snd fst].
      split; auto. split; auto. split; auto. split; auto. intros s' Q. injection Q as <-. auto.
    - destruct (found (structure_of (st_cfg st))) as [f|] eqn:Ef; [|cbn [fst snd]; split; auto; split; auto; split; auto; split; auto; discriminate].
      destruct (structures_ok _ f Ef) as [E _].
      assert (EM : make_structure R P Shp Sy Fn F LS lead_one (structure_of (st_cfg st)) f (st_ls st) = (structures (structure_of (st_cfg st)) f, true)).
      { unfold make_structure. destruct (st_ls st) eqn:El; [exact E|]. rewrite <- El.
        destruct (i_ls st I) as (f' & Ef' & El'); [congruence|]. rewrite Ef in Ef'. injection Ef' as <-. rewrite El'. reflexivity. }
      rewrite EM. cbn [make_structure fst snd]. rewrite E. cbn [fst snd].
      assert (NH : st_ham st = None). { destruct (st_ham st) eqn:Eh; auto. destruct (i_ham st I _ Eh) as (s & Hs & _). congruence. }
      assert (NL : st_lh st = []). { destruct (st_lh st) eqn:Eh; auto. destruct (i_lh st I) as (s & h & Hs & _); [congruence|]. congruence. }
      destruct (finish (structure_of (st_cfg st)) f) as [s|] eqn:Efi; cbn [fst snd st_cfg st_over st_sys].
      + split; [|split; auto; split; auto; split; auto; intros s' Q; injection Q as <-; auto].
        constructor; cbn [st_sys st_cfg st_ls st_ham st_lh st_over].
        * intros s' Q. injection Q as <-. eauto.
        * eauto.
        * rewrite NH. discriminate.
        * rewrite NL. congruence.
        * apply (i_over st I).
      + split; [|split; auto; split; auto; split; auto; discriminate].
        constructor; cbn [st_sys st_cfg st_ls st_ham st_lh st_over].
        * discriminate.
        * eauto.
        * rewrite NH. discriminate.
        * rewrite NL. congruence.
        * apply (i_over st I).
  Qed.

  Lemma make_ham_sim : forall c over s, (over = true -> type_insensitive) ->
    rsim hsim (fst (make_ham c over s)) (fst (make_ham c false s)) /\
    (snd (make_ham c over s) = true -> type_insensitive) /\
    (snd (make_ham c false s) = true -> snd (make_ham c over s) = true).
  Proof.
    intros c over s Ho. unfold ModelState.make_ham. rewrite orb_false_r.
    destruct (static_complex c) eqn:Ec; cbn [orb fst snd].
    - split; [destruct (complex_ham c s); cbn; auto|]. split; auto. discriminate.
    - destruct over; cbn [fst snd].
      + split; [|split; auto]. destruct (Ho eq_refl) as [T1 _]. specialize (T1 c s). destruct (real_ham c s) as [h| |]; cbn [fst].
        * destruct T1 as (h' & -> & Hs). exact Hs.
        * destruct (complex_ham c s); cbn; auto.
        * rewrite T1. exact I.
      + split; [|split; auto].
        * destruct (real_ham c s); cbn [fst rsim]; auto. destruct (complex_ham c s); cbn; auto.
        * destruct (real_ham c s) eqn:Er; cbn [snd]; try discriminate. intros _. destruct HO as [Hn|]; auto. exfalso. exact (Hn c s Er).
  Qed.

  Lemma q_ham_ok : forall st, Inv st ->
    Inv (fst (q_ham st)) /\ st_cfg (fst (q_ham st)) = st_cfg st /\
    rsim hsim (snd (q_ham st)) (snd (q_ham (fresh (st_cfg st)))) /\
    (forall h, snd (q_ham st) = Ret h -> st_ham (fst (q_ham st)) = Some h /\ exists s, st_sys (fst (q_ham st)) = Some s).
  Proof.
    intros st I. destruct (q_system_ok st I) as (I1 & C1 & O1 & E1 & S1).
    destruct (q_system_ok (fresh (st_cfg st)) (inv_fresh _)) as (I2 & C2 & O2 & _ & S2).
    unfold ModelState.q_ham.
    destruct (q_system st) as [st1 r1] eqn:Q1. destruct (q_system (fresh (st_cfg st))) as [st2 r2] eqn:Q2. cbn [fst snd] in *. subst r2.
    destruct r1 as [s|]; [|cbn [fst snd]; split; auto; split; auto; split; [exact Logic.I|discriminate]].
    specialize (S1 s eq_refl). specialize (S2 s eq_refl). cbn [fresh st_cfg st_over] in C2, O2.
    assert (H2 : st_ham st2 = None).
    { unfold ModelState.q_system in Q2. cbn [fresh st_sys st_cfg st_ham st_ls] in Q2. destruct (found _); [|congruence]. destruct (snd _); [|congruence].
      destruct (finish _ _); [|congruence]. injection Q2 as <- _. reflexivity. }
    rewrite H2, C2, O2. cbn [fst snd].
    assert (FR : snd (match fst (make_ham (st_cfg st) false s) with
        | Ret h => (St (st_cfg st) (st_sys st2) (Some h) (st_ls st2) (st_lh st2) (snd (make_ham (st_cfg st) false s)), Ret h)
        | Raise => (St (st_cfg st) (st_sys st2) None (st_ls st2) (st_lh st2) (snd (make_ham (st_cfg st) false s)), Raise) end)
        = fst (make_ham (st_cfg st) false s)) by (destruct (fst (make_ham (st_cfg st) false s)); reflexivity).
    rewrite FR. clear FR.
    destruct (st_ham st1) as [h|] eqn:Eh.
    - cbn [fst snd]. split; auto. split; auto. destruct (i_ham st1 I1 h Eh) as (s' & Es' & _ & h' & Em & Hh). rewrite S1 in Es'. injection Es' as <-.
      rewrite C1 in Em. rewrite Em. split; [exact Hh|]. intros h0 Q. injection Q as <-. eauto.
    - rewrite C1, O1. destruct (make_ham_sim (st_cfg st) (st_over st) s) as (MS & MO & MF); [apply (i_over st I)|].
      assert (NL : st_lh st1 = []). { destruct (st_lh st1) eqn:El; auto. destruct (i_lh st1 I1) as (? & ? & _ & Q & _); congruence. }
      destruct (fst (make_ham (st_cfg st) (st_over st) s)) as [h|] eqn:Em; cbn [fst snd st_cfg st_ham st_sys].
      + split; [|split; auto; split; auto; intros h0 Q; injection Q as <-; eauto].
        constructor; cbn [st_sys st_cfg st_ls st_ham st_lh st_over].
        * rewrite <- C1. exact (i_sys st1 I1).
        * rewrite <- C1. exact (i_ls st1 I1).
        * intros h0 Q. injection Q as <-. exists s. split; auto. split; [exact MF|].
          destruct (fst (make_ham (st_cfg st) false s)) as [h'|]; [|destruct MS]. eauto.
        * rewrite NL. congruence.
        * exact MO.
      + split; [|split; auto; split; auto; discriminate].
        constructor; cbn [st_sys st_cfg st_ls st_ham st_lh st_over].
        * rewrite <- C1. exact (i_sys st1 I1).
        * rewrite <- C1. exact (i_ls st1 I1).
        * discriminate.
        * rewrite NL. congruence.
        * exact MO.
  Qed.

  (** State after a successful Hamiltonian query on a fresh model. *)
  Lemma q_ham_fresh : forall c h, snd (q_ham (fresh c)) = Ret h ->
    exists f s, found (structure_of c) = Ret f /\ finish (structure_of c) f = Ret s /\ fst (make_ham c false s) = Ret h /\
      fst (q_ham (fresh c)) = St c (Some s) (Some h) (structures (structure_of c) f) [] (snd (make_ham c false s)).
  Proof.
    intros c h. unfold ModelState.q_ham, ModelState.q_system. cbn [fresh st_sys st_cfg st_ls].
    destruct (found (structure_of c)) as [f|] eqn:Ef; [|discriminate]. cbn [make_structure]. destruct (structures_ok _ f Ef) as [E _]. rewrite E. cbn [fst snd].
    destruct (finish (structure_of c) f) as [s|] eqn:Efi; [|discriminate]. cbn [st_ham fresh st_cfg st_over st_sys st_ls st_lh].
    destruct (fst (make_ham c false s)) as [h'|] eqn:Em; cbn [snd fst]; [|discriminate]. intros Q. injection Q as <-. exists f, s. auto.
  Qed.

  Lemma lead_hams_sim : forall c ls b b', (b <> b' -> type_insensitive) -> Forall2 lsim (lead_hams c (b || b') ls) (lead_hams c b' ls).
  Proof.
    intros c ls b b' HT. destruct (lead_hams_ok c (b || b') ls) as [_ F1]. destruct (lead_hams_ok c b' ls) as [_ F2].
    revert F1 F2. generalize (lead_hams c (b || b') ls) (lead_hams c b' ls). induction ls as [|x ls IH]; intros l1 l2 F1 F2; inversion F1; inversion F2; subst; constructor.
    - destruct b, b'; cbn [orb] in *; try (match goal with A : lead_ham _ _ _ = Ret ?y, B : lead_ham _ _ _ = Ret ?z |- lsim ?y ?z => rewrite A in B; injection B as <-; apply lsim_refl end).
      destruct (HT ltac:(discriminate)) as [_ T]. eapply T; eauto.
    - apply IH; auto.
  Qed.

  Lemma entries_sim : forall (c : config) sys1 sys2 h1 h2 ls lh1 lh2 o1 o2, Forall2 lsim lh1 lh2 ->
    Forall2 entry_sim (lead_entries R P Shp Sy Fn LS Sys H LH (St c sys1 h1 ls lh1 o1)) (lead_entries R P Shp Sy Fn LS Sys H LH (St c sys2 h2 ls lh2 o2)).
  Proof.
    intros c sys1 sys2 h1 h2 ls lh1 lh2 o1 o2 HF. unfold lead_entries. cbn [st_cfg st_ls st_lh].
    induction (seq 0 (length (c_leads c))) as [|i l IH]; constructor; auto.
    unfold entry_sim. destruct (nth_error (c_leads c) i); auto. destruct (nth_error ls i); auto.
    clear IH. revert i. induction HF as [|x y l1 l2 Hxy HF IHF]; intros [|i]; cbn [nth_error]; auto. apply IHF.
  Qed.

  Lemma q_leads_ok : forall st, Inv st ->
    Inv (fst (q_leads st)) /\ st_cfg (fst (q_leads st)) = st_cfg st /\
    rsim (Forall2 entry_sim) (snd (q_leads st)) (snd (q_leads (fresh (st_cfg st)))).
  Proof.
    intros st I. destruct (q_ham_ok st I) as (I1 & C1 & E1 & S1).
    pose proof (q_ham_fresh (st_cfg st)) as FR.
    unfold ModelState.q_leads.
    destruct (q_ham st) as [st1 r1] eqn:Q1. destruct (q_ham (fresh (st_cfg st))) as [st2 r2] eqn:Q2. cbn [fst snd] in *.
    destruct r1 as [h|], r2 as [h2|]; try contradiction; [|cbn [fst snd]; split; auto; split; auto; exact Logic.I].
    destruct (FR h2 eq_refl) as (f & s & Ef & Efi & Em & ->). clear FR. cbn [st_lh st_cfg st_ls st_sys st_ham st_over].
    destruct (S1 h eq_refl) as (Eh & s1 & Es).
    destruct (i_sys st1 I1 s1 Es) as (f1 & Ef1 & El1 & Efi1). rewrite C1 in *. rewrite Ef in Ef1. injection Ef1 as <-. rewrite Efi in Efi1. injection Efi1 as <-.
    set (b' := static_complex (st_cfg st) || snd (make_ham (st_cfg st) false s)).
    destruct (lead_hams_ok (st_cfg st) b' (structures (structure_of (st_cfg st)) f)) as [L2 _]. rewrite L2. cbn [fst snd].
    destruct (st_lh st1) as [|x lh] eqn:Elh.
    - set (b := static_complex (st_cfg st) || st_over st1).
      rewrite El1. destruct (lead_hams_ok (st_cfg st) b (structures (structure_of (st_cfg st)) f)) as [L1 _]. rewrite L1. cbn [fst snd st_cfg].
      (* the flag of the history is at least that of the fresh model unless the values agree *)
      assert (SIM : Forall2 lsim (lead_hams (st_cfg st) b (structures (structure_of (st_cfg st)) f)) (lead_hams (st_cfg st) b' (structures (structure_of (st_cfg st)) f))).
      { assert (X : b' = true -> b = true).
        { unfold b', b. intros Q. apply orb_true_iff in Q. destruct Q as [-> | Q]; auto.
          destruct (i_ham st1 I1 h Eh) as (s' & Es' & Fl & _). rewrite Es in Es'. injection Es' as <-. rewrite C1 in Fl. rewrite (Fl Q). apply orb_true_r. }
        assert (Y : b = true -> b' = false -> type_insensitive).
        { unfold b', b. intros Q Q'. apply orb_false_iff in Q'. destruct Q' as [Sc _]. rewrite Sc in Q. apply (i_over st1 I1). exact Q. }
        clearbody b b'. replace b with (b || b') by (destruct b, b'; auto; discriminate X; auto). apply lead_hams_sim. intros Nb. destruct b, b'; auto; try congruence; discriminate X; auto. }
      split; [|split; auto; cbn [rsim]; apply entries_sim; auto].
      constructor; cbn [st_sys st_cfg st_ls st_ham st_lh st_over].
      + intros s' Q. rewrite Es in Q. injection Q as <-. eauto.
      + eauto.
      + intros h' Q. rewrite <- C1. apply (i_ham st1 I1). auto.
      + intros _. exists s, h. auto.
      + apply (i_over st1 I1).
    - cbn [fst snd st_cfg]. split; auto. split; auto. cbn [rsim].
      destruct (i_lh st1 I1) as (s' & h' & Es' & Eh' & FL); [congruence|]. rewrite Es in Es'. injection Es' as <-. rewrite C1, El1 in FL. fold b' in FL.
      replace st1 with (St (st_cfg st) (st_sys st1) (st_ham st1) (structures (structure_of (st_cfg st)) f) (st_lh st1) (st_over st1)) by (rewrite <- El1, <- C1; destruct st1; reflexivity).
      apply entries_sim. exact FL.
  Qed.

  Lemma ask_ok : forall q st, Inv st ->
    Inv (fst (ask q st)) /\ st_cfg (fst (ask q st)) = st_cfg st /\ obs_sim (snd (ask q st)) (snd (ask q (fresh (st_cfg st)))).
  Proof.
    intros [| |] st I; cbn [ModelState.ask fst snd obs_sim].
    - destruct (q_system_ok st I) as (I1 & C1 & _ & E1 & _). auto.
    - destruct (q_ham_ok st I) as (I1 & C1 & E1 & _). auto.
    - destruct (q_leads_ok st I) as (I1 & C1 & E1). auto.
  Qed.

  (** Removing the modifiers does not clear the caches. *)
  Definition no_clear (m : mcall R P Shp Sy Fn) : Prop :=
    match m with ClearStructMods | ClearHamMods | ClearAllMods => False | _ => True end.

  Lemma call_ok : forall m st, Inv st -> no_clear m -> snd (do_call m st) = true -> Inv (fst (do_call m st)).
  Proof.
    intros m st I Hn Ha.
    assert (CS : forall c, Inv (St c None None [] [] (st_over st))).
    { intros c. constructor; cbn [st_sys st_ls st_ham st_lh st_over]; intros; try discriminate; try congruence. apply (i_over st I). auto. }
    assert (CH : forall c, structure_of c = structure_of (st_cfg st) -> Inv (St c (st_sys st) None (st_ls st) [] (st_over st))).
    { intros c E. constructor; cbn [st_sys st_cfg st_ls st_ham st_lh st_over]; rewrite ?E; intros; try discriminate; try congruence.
      - apply (i_sys st I). auto. - apply (i_ls st I). auto. - apply (i_over st I). auto. }
    unfold ModelState.do_call in *. cbn [fst snd] in *.
    destruct m; cbn [ModelState.configure no_clear] in *; try contradiction;
      repeat match goal with
      | |- context [if ?b then _ else _] => destruct b eqn:?
      | |- context [match register_family ?a ?b ?c ?d with _ => _ end] => destruct (register_family a b c d) eqn:?
      end; cbn [fst snd clear st_cfg st_sys st_ls st_over] in *; try discriminate; auto.
    destruct st; exact I.
  Qed.

  Lemma run_app : forall a b st, run (a ++ b) st = run b (run a st).
  Proof. intros. apply fold_left_app. Qed.

  Lemma ask_cfg : forall q st, st_cfg (fst (ask q st)) = st_cfg st.
  Proof.
    assert (QS : forall st, st_cfg (fst (q_system st)) = st_cfg st).
    { intros st. unfold ModelState.q_system. destruct (st_sys st); auto. destruct (found _); auto. destruct (snd _); auto. destruct (finish _ _); auto. }
    assert (QH : forall st, st_cfg (fst (q_ham st)) = st_cfg st).
    { intros st. unfold ModelState.q_ham. specialize (QS st). destruct (q_system st) as [st1 [s|]]; auto. cbn [fst] in QS.
      destruct (st_ham st1); auto. destruct (fst (make_ham _ _ _)); auto. }
    intros [| |] st; cbn [ModelState.ask fst]; auto.
    unfold ModelState.q_leads. specialize (QH st). destruct (q_ham st) as [st1 [h|]]; auto. cbn [fst] in QH. destruct (st_lh st1); auto.
  Qed.

  Lemma call_cfg : forall m st, st_cfg (fst (do_call m st)) = fst (fst (configure m (st_cfg st))).
  Proof. intros. unfold ModelState.do_call. cbn [fst]. destruct (snd (fst _)); reflexivity. Qed.

  (** Every call in the list is accepted, starting from configuration [c]. *)
  Fixpoint accepted (ops : list (op R P Shp Sy Fn)) (c : config) : Prop :=
    match ops with
    | [] => True
    | Call m :: t => snd (configure m c) = true /\ accepted t (fst (fst (configure m c)))
    | Ask q :: t => accepted t c
    end.
  Fixpoint no_clears (ops : list (op R P Shp Sy Fn)) : Prop :=
    match ops with [] => True | Call m :: t => no_clear m /\ no_clears t | Ask _ :: t => no_clears t end.

  Lemma run_inv : forall ops st, Inv st -> no_clears ops -> accepted ops (st_cfg st) -> Inv (run ops st).
  Proof.
    intros ops. induction ops as [|[m|q] ops IH]; intros st I Hn Ha; cbn [ModelState.run fold_left ModelState.step] in *; auto.
    - destruct Hn as [Hn1 Hn2], Ha as [Ha1 Ha2]. apply IH; auto.
      + apply call_ok; auto.
      + rewrite call_cfg. auto.
    - apply IH; auto.
      + apply ask_ok. auto.
      + rewrite ask_cfg. auto.
  Qed.

  Lemma run_calls : forall ops st c, st_cfg st = c -> run (config_calls ops) (fresh c) = fresh (st_cfg (run ops st)).
  Proof.
    intros ops. induction ops as [|[m|q] ops IH]; intros st c E; cbn [config_calls filter ModelState.run fold_left ModelState.step].
    - congruence.
    - replace (fst (do_call m (fresh c))) with (fresh (LS:=LS) (Sys:=Sys) (H:=H) (LH:=LH) (fst (fst (configure m c)))).
      + apply IH. rewrite call_cfg. congruence.
      + unfold ModelState.do_call, fresh. cbn [fst st_cfg st_sys st_ham st_ls st_lh st_over]. destruct (snd (fst _)); reflexivity.
    - apply IH. rewrite ask_cfg. auto.
  Qed.

  Theorem order_free : forall ops c q, no_clears ops -> accepted ops c ->
    obs_sim (snd (ask q (run ops (fresh c)))) (snd (ask q (run (config_calls ops) (fresh c)))).
  Proof.
    intros ops c q Hn Ha. rewrite (run_calls ops (fresh c) c eq_refl). apply ask_ok. apply run_inv; auto. apply inv_fresh.
  Qed.
End Proofs.

(** Two calls that set the same thing (C39). *)
Definition setter {R P Shp Sy Fn} (m m' : mcall R P Shp Sy Fn) : Prop :=
  match m, m' with
  | AddPrimitive _, AddPrimitive _ | AddShape _, AddShape _ | AddSymmetry _, AddSymmetry _ | SetWave _, SetWave _ => True
  | _, _ => False
  end.

Section Exact.
  Variable R : scalar.
  Variable P : Type.
  Variable padd : P -> P -> P.
  Variable peqb : P -> P -> bool.
  Variables Shp Sy Fn : Type.
  Variable offset_ok : P -> bool.
  Variables F LS Sys H LH : Type.
  Variable found : sconfig R P Shp Sy Fn -> res F.
  Variable lead_one : sconfig R P Shp Sy Fn -> F -> Z * shape P Shp -> res LS.
  Variable finish : sconfig R P Shp Sy Fn -> F -> res Sys.
  Variable real_ham : config R P Shp Sy Fn -> Sys -> hres H.
  Variable complex_ham : config R P Shp Sy Fn -> Sys -> res H.
  Variable lead_ham : config R P Shp Sy Fn -> bool -> LS -> res LH.
  Variable im : mat R -> bool.
  Notation ask := (ask R P Shp Sy Fn F LS Sys H LH found lead_one finish real_ham complex_ham lead_ham im).
  Notation run := (run R P padd peqb Shp Sy Fn offset_ok F LS Sys H LH found lead_one finish real_ham complex_ham lead_ham im).
  Notation do_call := (do_call R P padd peqb Shp Sy Fn offset_ok LS Sys H LH).
  Notation configure := (configure padd peqb offset_ok).

  Lemma Forall2_entry_eq : forall l l' : list (option ((Z * shape P Shp) * LS * LH)), Forall2 (entry_sim P Shp LS LH eq) l l' -> l = l'.
  Proof.
    intros l l' HF. induction HF as [|[[[a b] c]|] [[[a' b'] c']|] l l' E HF IH]; cbn in *; try contradiction; subst; auto.
    destruct E as (-> & -> & ->). reflexivity.
  Qed.

  Lemma obs_sim_eq : forall a b, obs_sim P Shp LS Sys H LH eq eq a b -> a = b.
  Proof.
    intros [[a|]|[a|]|[a|]] [[b|]|[b|]|[b|]]; cbn; intros E; try contradiction; try congruence; try reflexivity.
    f_equal. f_equal. apply Forall2_entry_eq. auto.
  Qed.

  Theorem order_free_exact : forall ops c q,
    leads_build R P Shp Sy Fn F LS LH found lead_one lead_ham -> never_override R P Shp Sy Fn Sys H real_ham ->
    no_clears R P Shp Sy Fn ops -> accepted R P padd peqb Shp Sy Fn offset_ok ops c ->
    snd (ask q (run ops (fresh c))) = snd (ask q (run (config_calls ops) (fresh c))).
  Proof.
    intros ops c q HL HO Hn Ha. apply obs_sim_eq. apply order_free; auto.
  Qed.

  (** C21: what a rejected call leaves alone. *)
  Lemma rejected_keeps : forall m (st : state R P Shp Sy Fn LS Sys H LH), snd (do_call m st) = false ->
    let st' := fst (do_call m st) in
    st_sys st' = st_sys st /\ st_ham st' = st_ham st /\ st_ls st' = st_ls st /\ st_lh st' = st_lh st /\ st_over st' = st_over st /\
    c_sites (st_cfg st') = c_sites (st_cfg st) /\ c_hops (st_cfg st') = c_hops (st_cfg st) /\ c_offset (st_cfg st') = c_offset (st_cfg st) /\
    c_sym (st_cfg st') = c_sym (st_cfg st) /\ c_wave (st_cfg st') = c_wave (st_cfg st) /\ c_leads (st_cfg st') = c_leads (st_cfg st) /\
    c_onsite (st_cfg st') = c_onsite (st_cfg st) /\ c_hopping (st_cfg st') = c_hopping (st_cfg st).
  Proof.
    intros m st. unfold ModelState.do_call. cbn [fst snd].
    destruct m; cbn [ModelState.configure];
      repeat match goal with
      | |- context [if ?b then _ else _] => destruct b eqn:?
      | |- context [match register_family ?a ?b ?c ?d with _ => _ end] => destruct (register_family a b c d) eqn:?
      end; cbn [fst snd clear]; try discriminate; intros _; cbv zeta; repeat split.
  Qed.

  Lemma rejected_lead : forall d s (st : state R P Shp Sy Fn LS Sys H LH), snd (do_call (AttachLead d s) st) = false -> fst (do_call (AttachLead d s) st) = st.
  Proof.
    intros d s st. unfold ModelState.do_call. cbn [ModelState.configure].
    repeat match goal with |- context [if ?b then _ else _] => destruct b eqn:? end; cbn [fst snd clear]; try discriminate; intros _; destruct st; reflexivity.
  Qed.

  (** Which calls can be rejected at all. *)
  Lemma rejected_kinds : forall m (c : config R P Shp Sy Fn), snd (configure m c) = false ->
    match m with AddPrimitive _ | AddShape _ | AttachLead _ _ | AddSiteGen _ _ _ | AddHopGen _ _ _ => True | _ => False end.
  Proof.
    intros m c. destruct m; cbn [ModelState.configure snd]; auto; try discriminate. destruct (peqb _ _); discriminate.
  Qed.

  (** A model that has already been built keeps answering as before until the next accepted call. *)
  Lemma rejected_answers : forall m q (st : state R P Shp Sy Fn LS Sys H LH) s h, snd (do_call m st) = false ->
    st_sys st = Some s -> st_ham st = Some h -> (st_lh st <> [] \/ st_ls st = []) ->
    snd (ask q (fst (do_call m st))) = snd (ask q st).
  Proof.
    intros m q st s h Hr Es Eh El. destruct (rejected_keeps m st Hr) as (K1 & K2 & K3 & K4 & K5 & _ & _ & _ & _ & _ & K6 & _). cbv zeta in *.
    set (st' := fst (do_call m st)) in *.
    destruct q; cbn [ModelState.ask snd]; f_equal.
    - unfold ModelState.q_system. rewrite K1, Es. reflexivity.
    - unfold ModelState.q_ham, ModelState.q_system. rewrite K1, Es, K2, Eh. reflexivity.
    - unfold ModelState.q_leads, ModelState.q_ham, ModelState.q_system. rewrite K1, Es, K2, Eh, K4.
      assert (LE : forall a b : state R P Shp Sy Fn LS Sys H LH, c_leads (st_cfg a) = c_leads (st_cfg b) -> st_ls a = st_ls b -> st_lh a = st_lh b ->
        lead_entries R P Shp Sy Fn LS Sys H LH a = lead_entries R P Shp Sy Fn LS Sys H LH b).
      { intros a b Q1 Q2 Q3. unfold lead_entries. rewrite Q1, Q2, Q3. reflexivity. }
      destruct (st_lh st) as [|x lh] eqn:Elh.
      + destruct El as [El|El]; [congruence|]. rewrite K3, El. cbn [emplace_all snd fst]. f_equal. apply LE; auto.
      + cbn [snd]. f_equal. apply LE; auto. congruence.
  Qed.

  (** Later settings replace earlier ones, except that the offset of the lattice accumulates. *)
  Lemma replace_primitive : forall a b (c : config R P Shp Sy Fn), fst (fst (configure (AddPrimitive b) (fst (fst (configure (AddPrimitive a) c))))) = fst (fst (configure (AddPrimitive b) c)).
  Proof.
    intros a b c. cbn [ModelState.configure].
    repeat match goal with |- context [if ?x then _ else _] => destruct x eqn:? end; reflexivity.
  Qed.
  Lemma replace_symmetry : forall a b (c : config R P Shp Sy Fn), fst (fst (configure (AddSymmetry b) (fst (fst (configure (AddSymmetry a) c))))) = fst (fst (configure (AddSymmetry b) c)).
  Proof. reflexivity. Qed.
  Lemma replace_shape : forall a b (c : config R P Shp Sy Fn), padd (c_offset c) (sh_offset a) = c_offset c ->
    fst (fst (configure (AddShape b) (fst (fst (configure (AddShape a) c))))) = fst (fst (configure (AddShape b) c)).
  Proof.
    intros a b c E. cbn [ModelState.configure]. rewrite E.
    destruct (offset_ok (c_offset c)); cbn [fst c_offset with_offset with_shape]; destruct (offset_ok _); reflexivity.
  Qed.
  Lemma replace_wave : forall a b (c : config R P Shp Sy Fn), (forall x y, peqb x y = true <-> x = y) ->
    fst (fst (configure (SetWave b) (fst (fst (configure (SetWave a) c))))) = fst (fst (configure (SetWave b) c)).
  Proof.
    intros a b c Hp. cbn [ModelState.configure]. destruct (peqb (c_wave c) a) eqn:Ea; cbn [fst]; [reflexivity|].
    cbn [c_wave with_wave]. destruct (peqb a b) eqn:Eb; cbn [fst].
    - apply Hp in Eb. subst b. rewrite Ea. reflexivity.
    - destruct (peqb (c_wave c) b) eqn:Ec; cbn [fst]; [|reflexivity]. apply Hp in Ec. subst b. destruct c; reflexivity.
  Qed.

  Lemma last_setting : forall m m' c, (forall x y, peqb x y = true <-> x = y) ->
    setter m m' ->
    match m with AddShape s => padd (c_offset c) (sh_offset s) = c_offset c | _ => True end ->
    run [Call m; Call m'] (fresh c) = run [Call m'] (fresh c).
  Proof.
    intros m m' c Hp Hs Ho.
    pose proof (run_calls R P padd peqb Shp Sy Fn offset_ok F LS Sys H LH found lead_one finish real_ham complex_ham lead_ham im) as RC.
    transitivity (fresh (LS:=LS) (Sys:=Sys) (H:=H) (LH:=LH) (st_cfg (run [Call m; Call m'] (fresh c)))); [exact (RC [Call m; Call m'] (fresh c) c eq_refl)|].
    transitivity (fresh (LS:=LS) (Sys:=Sys) (H:=H) (LH:=LH) (st_cfg (run [Call m'] (fresh c)))); [|symmetry; exact (RC [Call m'] (fresh c) c eq_refl)].
    f_equal. cbn [ModelState.run fold_left ModelState.step]. rewrite !call_cfg.
    destruct m, m'; try contradiction; cbn [fresh st_cfg].
    - apply replace_primitive. - apply replace_shape; auto. - apply replace_symmetry. - apply replace_wave; auto.
  Qed.
End Exact.
