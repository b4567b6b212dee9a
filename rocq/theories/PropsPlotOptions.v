(* C121: plot options reach the drawing functions *)
From Coq Require Import String.
From Verif Require Import Base PlotOptions.
Import ListNotations.
Local Open Scope list_scope.

(* ------------------------------------------------ specification *)
Section Spec.
  Variable V : Type.
  (** Some options *)
  Definition layer := string -> option V.
  Definition only (k0 : string) (v : V) : layer := fun k => if String.eqb k k0 then Some v else None.
  (** The value of the first layer that has the option *)
  Fixpoint first (ls : list layer) : layer :=
    fun k => match ls with [] => None | l :: r => match l k with Some v => Some v | None => first r k end end.
  (** The options of a dictionary *)
  Definition value (d : list (string * V)) : layer := fun k => option_map snd (find (fun kv => String.eqb (fst kv) k) d).
  Definition given (o : option (list (string * V))) : layer := match o with Some d => value d | None => fun _ => None end.

  (** A key is at most once in a dictionary. *)
  Definition proper (d : list (string * V)) : Prop := NoDup (map fst d).
  Definition proper_option (o : option (list (string * V))) : Prop := match o with Some d => proper d | None => True end.
  Definition wf (a : args V) : Prop :=
    proper_option (a_site a) /\ proper_option (a_hopping a) /\ proper_option (a_boundary a) /\
    (forall o, a_sites a = Some o -> proper_option o) /\ (forall o, a_hoppings a = Some o -> proper_option o).

  (** What the user gave; the plural forms come before the others. *)
  Definition site (a : args V) : layer := given (match a_sites a with Some s => s | None => a_site a end).
  Definition hop (a : args V) : layer := given (match a_hoppings a with Some h => h | None => a_hopping a end).
  Definition bnd (a : args V) : layer := given (a_boundary a).
  Definition known (a : args V) : Prop := forall k v, In (k, v) (a_rest a) -> k = "add_margin"%string.
  Variable c : values V.
  Definition axes (a : args V) : layer := only "axes" (match a_axes a with Some x => x | None => v_xyz c end).

  (** A call that is wanted: the function, what the program gives by name, the other options, and those of the user for it *)
  Record want := Want { w_fn : fn; w_fixed : list (string * V); w_opts : layer; w_asked : layer }.
  (** The parameters that are given by position *)
  Definition taken (f : fn) : list string := match f with PlotSites => ["positions"; "data"]%string | PlotHoppings => ["positions"; "hoppings"]%string end.
  (** No argument is given twice. *)
  Definition legal (w : want) : Prop := forall k, In k (taken (w_fn w) ++ map fst (w_fixed w)) -> w_opts w k = None.
  Definition drawn (d : draw V) (w : want) : Prop :=
    d_fn d = w_fn w /\ forall k, value (d_opts d) k = first [value (w_fixed w); w_opts w] k.
  (** Options of the user arrive. *)
  Definition obeyed (d : draw V) (w : want) : Prop := forall k v, w_asked w k = Some v -> value (d_opts d) k = Some v.

  (** The calls: the cell itself, its copies and the bonds across the boundaries.  [s], [h], [b]: options of sites, hoppings
      and boundaries beyond the home cell. *)
  Definition wanted (a : args V) (home : list want) (s h b : layer) (levels : list (level V)) : list want :=
    home ++
    flat_map (fun l => flat_map (fun o => [Want PlotSites [("offset"%string, o)] (first [s; only "blend" (l_blend l)]) (site a);
                                           Want PlotHoppings [("offset"%string, o)] (first [h; only "blend" (l_blend l)]) (hop a)]) (l_shifts l)) levels ++
    flat_map (fun l => map (fun ob => Want PlotHoppings [("offset"%string, fst ob); ("boundary"%string, snd ob)]
                                           (first [b; only "blend" (l_blend l)]) (first [bnd a; hop a])) (l_bonds l)) levels.
  (** Boundaries look like hoppings but are red, if no colour was given. *)
  Definition boundary_options (a : args V) : layer := first [bnd a; hop a; axes a; only "color" (v_red c)].
  Definition structure_wanted (radius : option V) (levels : list (level V)) (a : args V) : list want :=
    let s := first [site a; axes a; match radius with Some r => only "radius" r | None => fun _ => None end] in
    let h := first [hop a; axes a] in
    wanted a [Want PlotHoppings [] h (hop a); Want PlotSites [] s (site a)] s h (boundary_options a) levels.
  Definition map_wanted (radius cmap : V) (levels : list (level V)) (a : args V) : list want :=
    let s := first [site a; axes a; only "radius" radius; only "cmap" cmap] in
    let h := first [hop a; axes a; only "color" (v_gray c)] in
    let half := only "alpha" (v_half c) in
    wanted a [Want PlotSites [] s (site a); Want PlotHoppings [] h (hop a)] (first [half; s]) (first [half; h])
           (first [boundary_options a; half]) levels.
End Spec.
Arguments only {V}. Arguments first {V}. Arguments value {V}. Arguments given {V}. Arguments proper {V}. Arguments proper_option {V}. Arguments wf {V}.
Arguments site {V}. Arguments hop {V}. Arguments bnd {V}. Arguments known {V}. Arguments axes {V}. Arguments Want {V}. Arguments w_fn {V}. Arguments w_fixed {V}.
Arguments w_opts {V}. Arguments w_asked {V}. Arguments legal {V}. Arguments drawn {V}. Arguments obeyed {V}. Arguments wanted {V}.
Arguments boundary_options {V}. Arguments structure_wanted {V}. Arguments map_wanted {V}.

(* ------------------------------------------------ dictionaries *)
Section Dict.
  Variable V : Type.
  Implicit Types d o : list (string * V).

  Lemma get_value : forall d k, get d k = value d k.
  Proof.
    intros d k. unfold value. induction d as [|[x v] r IH]; [reflexivity|]. cbn. destruct (String.eqb x k); [reflexivity|exact IH].
  Qed.
  Lemma value_none : forall d k, value d k = None <-> ~ In k (map fst d).
  Proof.
    intros d k. rewrite <- get_value. induction d as [|[x v] r IH]; cbn; [tauto|].
    destruct (String.eqb_spec x k) as [->|N]; [split; [discriminate|tauto]|]. rewrite IH. tauto.
  Qed.
  Lemma value_set : forall d k v x, value (set d k v) x = if String.eqb x k then Some v else value d x.
  Proof.
    intros d k v x. rewrite <- !get_value. induction d as [|[y w] r IH]; cbn.
    - rewrite (String.eqb_sym k x). destruct (String.eqb x k); reflexivity.
    - destruct (String.eqb_spec y k) as [->|N]; cbn.
      + rewrite (String.eqb_sym k x). destruct (String.eqb x k); reflexivity.
      + destruct (String.eqb_spec y x) as [->|M]; [|exact IH].
        destruct (String.eqb_spec x k) as [E|_]; [contradiction|reflexivity].
  Qed.
  Lemma set_keys : forall d k v x, In x (map fst (set d k v)) <-> x = k \/ In x (map fst d).
  Proof.
    intros d k v x. induction d as [|[y w] r IH]; cbn; [intuition|].
    destruct (String.eqb_spec y k) as [->|N]; cbn; [intuition|]. rewrite IH. intuition.
  Qed.
  Lemma set_proper : forall d k v, proper d -> proper (set d k v).
  Proof.
    unfold proper. intros d k v. induction d as [|[y w] r IH]; cbn; intros H; [constructor; [intros []|constructor]|].
    inversion H as [|? ? H1 H2]; subst. destruct (String.eqb_spec y k) as [->|N]; cbn; [constructor; assumption|].
    constructor; [|apply IH; assumption]. rewrite set_keys. intuition.
  Qed.
  Lemma update_value : forall o d k, proper o -> value (update d o) k = match value o k with Some v => Some v | None => value d k end.
  Proof.
    induction o as [|[x v] r IH]; intros d k H; [reflexivity|]. unfold update. cbn [fold_left fst snd]. fold (update (set d x v) r).
    inversion H as [|? ? H1 H2]; subst. rewrite IH by exact H2. rewrite value_set.
    rewrite <- !get_value. cbn [get]. rewrite (String.eqb_sym k x). destruct (String.eqb_spec x k) as [->|N]; [|reflexivity].
    destruct (get r k) eqn:E; [|reflexivity]. exfalso. rewrite get_value in E. assert (value r k = None) by (apply value_none; exact H1). congruence.
  Qed.
  Lemma update_proper : forall o d, proper d -> proper (update d o).
  Proof.
    induction o as [|[x v] r IH]; intros d H; [exact H|]. apply IH. apply set_proper, H.
  Qed.
  Lemma value_app : forall d o k, value (d ++ o) k = first [value d; value o] k.
  Proof.
    intros d o k. cbn. rewrite <- !get_value. induction d as [|[x v] r IH]; cbn.
    - destruct (get o k); reflexivity.
    - destruct (String.eqb x k); [reflexivity|exact IH].
  Qed.
  Lemma with_defaults_value : forall (opt dd : option (list (string * V))) (kw : list (string * V)) k, proper_option opt -> proper_option dd -> proper kw ->
    value (with_defaults opt dd kw) k = first [given opt; given dd; value kw] k.
  Proof.
    intros opt dd kw k H1 H2 H3. unfold with_defaults. cbv zeta.
    set (o := match opt with Some o => o | None => [] end).
    assert (Ho : proper o) by (unfold o; destruct opt; [exact H1|constructor]).
    assert (Eo : forall k, value o k = given opt k) by (intros q; unfold o; destruct opt; reflexivity).
    set (o2 := match dd with Some (kv :: d) => update (kv :: d) o | _ => o end).
    assert (Ho2 : proper o2) by (unfold o2; destruct dd as [[|kv d]|]; try exact Ho; apply update_proper; exact H2).
    assert (Eo2 : value o2 k = first [given opt; given dd] k).
    { cbn. rewrite <- Eo. unfold o2. destruct dd as [[|kv d]|]; cbn [given].
      - cbn. destruct (value o k); reflexivity.
      - rewrite update_value by exact Ho. destruct (value o k); [reflexivity|]. destruct (value (kv :: d) k); reflexivity.
      - destruct (value o k); reflexivity. }
    change (value (update kw o2) k = first [given opt; given dd; value kw] k). rewrite (update_value o2 kw k Ho2). rewrite Eo2. cbn.
    destruct (given opt k); [reflexivity|]. destruct (given dd k); [reflexivity|]. destruct (value kw k); reflexivity.
  Qed.
  Lemma with_defaults_proper : forall (opt dd : option (list (string * V))) (kw : list (string * V)), proper kw -> proper (with_defaults opt dd kw).
  Proof. intros. unfold with_defaults. apply update_proper. assumption. Qed.
  Lemma value_one : forall x (v : V) k, value [(x, v)] k = only x v k.
  Proof. intros x v k. rewrite <- get_value. cbn. unfold only. rewrite (String.eqb_sym k x). destruct (String.eqb x k); reflexivity. Qed.
  Lemma proper_one : forall x (v : V), proper [(x, v)].
  Proof. intros. constructor; [intros []|constructor]. Qed.
  Lemma has_value : forall d k, has d k = true <-> value d k <> None.
  Proof. intros d k. unfold has. rewrite get_value. destruct (value d k); split; congruence. Qed.
End Dict.

(* ------------------------------------------------ calls *)
Section Calls.
  Variable V : Type.

  Lemma call_spec : forall f (fixed opts : list (string * V)) L asked, (forall k, value opts k = L k) ->
    match call f fixed opts with
    | Ok d => legal (Want f fixed L asked) /\ drawn d (Want f fixed L asked)
    | Throw => ~ legal (Want f fixed L asked)
    | UB => False
    end.
  Proof.
    intros f fixed opts L asked E. unfold call. change (positional f) with (taken f). destruct (existsb (has opts) (taken f ++ map fst fixed)) eqn:H.
    - apply existsb_exists in H. destruct H as (k & H1 & H2). apply has_value in H2. intros C. apply H2. rewrite E. apply (C k), H1.
    - split.
      + intros k K. cbn [w_opts w_fn w_fixed] in *. rewrite <- E. destruct (value opts k) eqn:G; [|reflexivity]. exfalso.
        assert (T : existsb (has opts) (taken f ++ map fst fixed) = true) by
          (apply existsb_exists; exists k; split; [exact K|]; apply has_value; congruence).
        congruence.
      + split; [reflexivity|]. intros k. cbn [d_opts w_fixed w_opts]. rewrite value_app. cbn. rewrite E. reflexivity.
  Qed.
  Definition meets (x : outcome (draw V)) (w : want V) : Prop :=
    match x with Ok d => legal w /\ drawn d w | Throw => ~ legal w | UB => False end.
  Lemma calls_spec : forall l ws, Forall2 meets l ws ->
    match calls l with
    | Ok ds => Forall legal ws /\ Forall2 drawn ds ws
    | Throw => ~ Forall legal ws
    | UB => False
    end.
  Proof.
    intros l ws H. induction H as [|x w l ws H1 H2 IH]; cbn; [split; constructor|].
    destruct x as [d| |]; cbn in H1 |- *; [|intros C; inversion C; contradiction|contradiction].
    destruct H1 as [H1 H3]. destruct (calls l) as [ds| |]; cbn; [|intros C; inversion C; contradiction|contradiction].
    destruct IH as [I1 I2]. split; constructor; assumption.
  Qed.
  Lemma Forall2_flat_map : forall A B C (R : B -> C -> Prop) (f : A -> list B) (g : A -> list C) l,
    (forall x, Forall2 R (f x) (g x)) -> Forall2 R (flat_map f l) (flat_map g l).
  Proof. intros A B C R f g l H. induction l as [|x l IH]; cbn; [constructor|]. apply Forall2_app; [apply H|exact IH]. Qed.
  Lemma Forall2_map : forall A B C (R : B -> C -> Prop) (f : A -> B) (g : A -> C) l,
    (forall x, R (f x) (g x)) -> Forall2 R (map f l) (map g l).
  Proof. intros A B C R f g l H. induction l as [|x l IH]; cbn; constructor; [apply H|exact IH]. Qed.

  Variable c : values V.
  Definition props_are (p : props V) (ax : V) (s h b : layer V) : Prop :=
    p_axes p = ax /\ proper (p_site p) /\ proper (p_hopping p) /\ proper (p_boundary p) /\
    (forall k, value (p_site p) k = s k) /\ (forall k, value (p_hopping p) k = h k) /\ (forall k, value (p_boundary p) k = b k).
  Definition the_axes (a : args V) : V := match a_axes a with Some x => x | None => v_xyz c end.

  Lemma properties_spec : forall a, wf a ->
    match properties c a with
    | Ok p => known a /\ props_are p (the_axes a) (first [site a; axes c a]) (first [hop a; axes c a]) (boundary_options c a)
    | Throw => ~ known a
    | UB => False
    end.
  Proof.
    intros a (W1 & W2 & W3 & W4 & W5). unfold properties.
    destruct (existsb _ (a_rest a)) eqn:H.
    - apply existsb_exists in H. destruct H as ([k v] & H1 & H2). intros C. specialize (C k v H1). subst k. discriminate.
    - split.
      + intros k v I. destruct (String.eqb_spec k "add_margin") as [->|N]; [reflexivity|]. exfalso.
        assert (T : existsb (fun kv : string * V => negb (String.eqb (fst kv) "add_margin")) (a_rest a) = true)
          by (apply existsb_exists; exists (k, v); split; [exact I|]; apply String.eqb_neq in N; cbn; rewrite N; reflexivity).
        congruence.
      + assert (Ps : proper_option (match a_sites a with Some s => s | None => a_site a end))
          by (destruct (a_sites a) as [s|]; [apply W4; reflexivity|exact W1]).
        assert (Ph : proper_option (match a_hoppings a with Some s => s | None => a_hopping a end))
          by (destruct (a_hoppings a) as [s|]; [apply W5; reflexivity|exact W2]).
        fold (the_axes a).
        set (h := with_defaults (match a_hoppings a with Some h => h | None => a_hopping a end) None [("axes"%string, the_axes a)]).
        assert (Pp : proper h) by (apply with_defaults_proper, proper_one).
        assert (Eh : forall k, value h k = first [hop a; axes c a] k).
        { intros k. unfold h. rewrite with_defaults_value by (try exact Ph; try exact I; apply proper_one).
          cbn. rewrite value_one. reflexivity. }
        unfold props_are. cbn [p_axes p_site p_hopping p_boundary].
        split; [reflexivity|]. split; [apply with_defaults_proper, proper_one|]. split; [exact Pp|].
        split; [apply with_defaults_proper, proper_one|]. split; [|split; [exact Eh|]].
        * intros k. rewrite with_defaults_value by (try exact Ps; try exact I; apply proper_one). cbn. rewrite value_one. reflexivity.
        * intros k. rewrite with_defaults_value by (try exact W3; try exact Pp; apply proper_one). cbn [given].
          unfold boundary_options, bnd. cbn. rewrite Eh, value_one. cbn.
          destruct (given (a_boundary a) k); [reflexivity|]. destruct (hop a k); [reflexivity|]. destruct (axes c a k); reflexivity.
  Qed.

  (** The second time nothing is added to sites and hoppings with their axes. *)
  Lemma first_same : forall (l m : layer V) k, first [l; m] k = match l k with Some v => Some v | None => m k end.
  Proof. intros. cbn. destruct (l k); [reflexivity|]. destruct (m k); reflexivity. Qed.
  Lemma axes_there : forall ax (l : layer V) k, l "axes"%string <> None -> first [l; only "axes" ax] k = l k.
  Proof.
    intros ax l k H. cbn. unfold only. destruct (l k) eqn:E; [reflexivity|].
    destruct (String.eqb_spec k "axes") as [->|N]; [contradiction|reflexivity].
  Qed.

  Lemma keywords_wf : forall p ax s h b, props_are p ax s h b -> wf (keywords p).
  Proof.
    intros p ax s h b (_ & P1 & P2 & P3 & _). repeat split; cbn; try assumption; intros o; discriminate.
  Qed.
  Lemma keywords_known : forall (p : props V), known (keywords p).
  Proof. intros p k v [E|[]]. congruence. Qed.
  Lemma periodic_spec : forall a p ax s h b levels, props_are p ax s h b ->
    s "axes"%string <> None -> h "axes"%string <> None ->
    match periodic c levels (keywords p) with
    | Ok ds => Forall legal (wanted a [] s h (first [b; h; only "color" (v_red c)]) levels) /\
               Forall2 drawn ds (wanted a [] s h (first [b; h; only "color" (v_red c)]) levels)
    | Throw => ~ Forall legal (wanted a [] s h (first [b; h; only "color" (v_red c)]) levels)
    | UB => False
    end.
  Proof.
    intros a p ax s h b levels H As Ah. pose proof H as (E0 & P1 & P2 & P3 & E1 & E2 & E3). unfold periodic.
    pose proof (properties_spec (keywords p) (keywords_wf p ax s h b H)) as Q.
    destruct (properties c (keywords p)) as [q| |]; [|exfalso; apply Q, keywords_known|contradiction].
    destruct Q as [_ (Q0 & Q1 & Q2 & Q3 & F1 & F2 & F3)]. cbn [obind].
    assert (G1 : forall k, value (p_site q) k = s k).
    { intros k. rewrite F1. unfold axes, site, keywords. cbn [a_sites a_site a_axes given]. rewrite <- E1. rewrite axes_there; [reflexivity|].
      rewrite E1. exact As. }
    assert (G2 : forall k, value (p_hopping q) k = h k).
    { intros k. rewrite F2. unfold axes, hop, keywords. cbn [a_hoppings a_hopping a_axes given]. rewrite <- E2. rewrite axes_there; [reflexivity|].
      rewrite E2. exact Ah. }
    assert (G3 : forall k, value (p_boundary q) k = first [b; h; only "color" (v_red c)] k).
    { intros k. rewrite F3. unfold boundary_options, axes, bnd, hop, keywords. cbn [a_hoppings a_hopping a_boundary a_axes given].
      cbn. rewrite E3. destruct (b k); [reflexivity|]. rewrite E2. destruct (h k) eqn:Hk; [reflexivity|].
      unfold only at 1. destruct (String.eqb_spec k "axes") as [->|N]; [contradiction|reflexivity]. }
    apply calls_spec. unfold wanted. cbn [app]. apply Forall2_app.
    - apply Forall2_flat_map. intros l. unfold cells. apply Forall2_flat_map. intros o.
      constructor; [|constructor; [|constructor]]; apply call_spec; intros k; rewrite update_value by assumption; rewrite value_one;
        rewrite first_same, ?G1, ?G2; reflexivity.
    - apply Forall2_flat_map. intros l. unfold bonds. apply Forall2_map. intros ob. apply call_spec. intros k.
      rewrite update_value by assumption. rewrite value_one. rewrite first_same, G3. reflexivity.
  Qed.
End Calls.

Section Main.
  Local Open Scope string_scope. Local Open Scope list_scope.
  Variable V : Type.
  Variable c : values V.

  Definition same (w w' : want V) : Prop := w_fn w = w_fn w' /\ w_fixed w = w_fixed w' /\ forall k, w_opts w k = w_opts w' k.
  Lemma same_legal : forall W W', Forall2 same W W' -> Forall legal W -> Forall legal W'.
  Proof.
    intros W W' H. induction H as [|w w' W W' H1 H2 IH]; intros L; [constructor|]. inversion L as [|? ? L1 L2]; subst.
    constructor; [|apply IH, L2]. destruct H1 as (E1 & E2 & E3). intros k K. rewrite <- E3. apply L1. rewrite E1, E2. exact K.
  Qed.
  Lemma same_drawn : forall W W' ds, Forall2 same W W' -> Forall2 drawn ds W -> Forall2 drawn ds W'.
  Proof.
    intros W W' ds H. revert ds. induction H as [|w w' W W' H1 H2 IH]; intros ds L; inversion L as [|d ? ds' ? L1 L2]; subst; constructor.
    - destruct H1 as (E1 & E2 & E3), L1 as (D1 & D2). split; [congruence|]. intros k. rewrite D2, E2. cbn. rewrite E3. reflexivity.
    - apply IH, L2.
  Qed.
  Lemma same_sym : forall W W', Forall2 same W W' -> Forall2 same W' W.
  Proof.
    intros W W' H. induction H as [|w w' W W' (E1 & E2 & E3) H2 IH]; constructor; [|exact IH].
    split; [congruence|]. split; [congruence|]. intros k. symmetry. apply E3.
  Qed.
  Lemma wanted_same : forall a s h b s' h' b' levels, (forall k, s k = s' k) -> (forall k, h k = h' k) -> (forall k, b k = b' k) ->
    Forall2 same (wanted a [] s h b levels) (wanted a [] s' h' b' levels).
  Proof.
    intros a s h b s' h' b' levels E1 E2 E3. unfold wanted. cbn [app]. apply Forall2_app.
    - apply Forall2_flat_map. intros l. apply Forall2_flat_map. intros o.
      constructor; [|constructor; [|constructor]]; (split; [reflexivity|]); (split; [reflexivity|]); intros k; cbn; rewrite ?E1, ?E2; reflexivity.
    - apply Forall2_flat_map. intros l. apply Forall2_map. intros ob. split; [reflexivity|]. split; [reflexivity|]. intros k. cbn. rewrite E3. reflexivity.
  Qed.

  (** Home cell, then the rest *)
  Lemma both : forall a p ax s h b s2 h2 b2 home hw levels, props_are V p ax s h b ->
    s "axes"%string <> None -> h "axes"%string <> None ->
    (forall k, s k = s2 k) -> (forall k, h k = h2 k) -> (forall k, first [b; h; only "color" (v_red c)] k = b2 k) ->
    Forall2 (meets V) home hw ->
    match obind (calls home) (fun x => omap (app x) (periodic c levels (keywords p))) with
    | Ok ds => Forall legal (wanted a hw s2 h2 b2 levels) /\ Forall2 drawn ds (wanted a hw s2 h2 b2 levels)
    | Throw => ~ Forall legal (wanted a hw s2 h2 b2 levels)
    | UB => False
    end.
  Proof.
    intros a p ax s h b s2 h2 b2 home hw levels H As Ah E1 E2 E3 M.
    pose proof (calls_spec V home hw M) as C. pose proof (periodic_spec V c a p ax s h b levels H As Ah) as P.
    pose proof (wanted_same a s h _ s2 h2 b2 levels E1 E2 E3) as S.
    change (wanted a hw s2 h2 b2 levels) with (hw ++ wanted a [] s2 h2 b2 levels).
    destruct (calls home) as [x| |]; cbn [obind]; [|intros L; apply C; apply Forall_app in L; apply L|contradiction].
    destruct C as [C1 C2]. unfold omap. destruct (periodic c levels (keywords p)) as [y| |]; cbn [obind].
    - destruct P as [P1 P2]. split; [apply Forall_app; split; [exact C1|eapply same_legal; eassumption]|].
      apply Forall2_app; [exact C2|eapply same_drawn; eassumption].
    - intros L. apply P. apply Forall_app in L. eapply same_legal; [apply same_sym; exact S|]. apply L.
    - contradiction.
  Qed.
  Lemma boundary_again : forall a k, first [boundary_options c a; first [hop a; axes c a]; only "color" (v_red c)] k = boundary_options c a k.
  Proof.
    intros a k. unfold boundary_options. cbn. destruct (bnd a k); [reflexivity|]. destruct (hop a k); [reflexivity|].
    destruct (axes c a k); [reflexivity|]. destruct (only "color" (v_red c) k); reflexivity.
  Qed.
  Lemma axes_some : forall a (l : layer V) r, first (l :: axes c a :: r) "axes"%string <> None.
  Proof. intros a l r. cbn. destruct (l "axes"%string); discriminate. Qed.

  (** The exact calls *)
  Theorem C121_structure : forall radius levels a, wf a ->
    match plot_structure c radius levels a with
    | Ok ds => known a /\ Forall legal (structure_wanted c radius levels a) /\ Forall2 drawn ds (structure_wanted c radius levels a)
    | Throw => ~ (known a /\ Forall legal (structure_wanted c radius levels a))
    | UB => False
    end.
  Proof.
    intros radius levels a W. unfold plot_structure. pose proof (properties_spec V c a W) as Q.
    destruct (properties c a) as [p| |]; cbn [obind]; [|tauto|contradiction]. destruct Q as [K (E0 & P1 & P2 & P3 & E1 & E2 & E3)].
    set (st := match radius with Some r => setdefault (p_site p) "radius" r | None => p_site p end).
    set (s := first [site a; axes c a; match radius with Some r => only "radius" r | None => fun _ => None end]).
    assert (Ps : proper st).
    { unfold st, setdefault. destruct radius; [|exact P1]. destruct (has _ _); [exact P1|apply set_proper, P1]. }
    assert (Es : forall k, value st k = s k).
    { intros k. unfold st, s. destruct radius as [r|].
      - unfold setdefault. destruct (has (p_site p) "radius") eqn:Hh.
        + rewrite E1. apply has_value in Hh. rewrite E1 in Hh. cbn in Hh |- *.
          destruct (site a k) eqn:S1; [reflexivity|]. destruct (axes c a k) eqn:S2; [reflexivity|].
          unfold only. destruct (String.eqb_spec k "radius") as [->|N]; [|reflexivity]. rewrite S1 in Hh. contradiction.
        + rewrite value_set, E1. assert (G : value (p_site p) "radius" = None).
          { destruct (value (p_site p) "radius") eqn:G; [|reflexivity]. exfalso.
            assert (has (p_site p) "radius" = true) by (apply has_value; congruence). congruence. }
          rewrite E1 in G. cbn in G |- *. unfold only. destruct (String.eqb_spec k "radius") as [->|N].
          * destruct (site a "radius"); [discriminate|reflexivity].
          * destruct (site a k); [reflexivity|]. destruct (axes c a k); reflexivity.
      - rewrite E1. cbn. destruct (site a k); [reflexivity|]. destruct (axes c a k); reflexivity. }
    cbn [p_axes p_margin p_site p_hopping p_boundary].
    set (q := Props (p_axes p) (p_margin p) st (p_hopping p) (p_boundary p)).
    pose proof (both a q (the_axes V c a) s (first [hop a; axes c a]) (boundary_options c a) s (first [hop a; axes c a]) (boundary_options c a)
                     [call PlotHoppings [] (p_hopping p); call PlotSites [] st]
                     [Want PlotHoppings [] (first [hop a; axes c a]) (hop a); Want PlotSites [] s (site a)] levels) as B.
    assert (Hq : props_are V q (the_axes V c a) s (first [hop a; axes c a]) (boundary_options c a)) by (repeat split; assumption).
    specialize (B Hq (axes_some a _ _) (axes_some a _ _) (fun k => eq_refl) (fun k => eq_refl) (boundary_again a)).
    assert (M : Forall2 (meets V) [call PlotHoppings [] (p_hopping p); call PlotSites [] st]
                     [Want PlotHoppings [] (first [hop a; axes c a]) (hop a); Want PlotSites [] s (site a)]).
    { constructor; [apply call_spec; exact E2|]. constructor; [apply call_spec; exact Es|constructor]. }
    specialize (B M). change (structure_wanted c radius levels a) with
      (wanted a [Want PlotHoppings [] (first [hop a; axes c a]) (hop a); Want PlotSites [] s (site a)] s (first [hop a; axes c a]) (boundary_options c a) levels).
    cbv zeta. destruct (obind _ _); tauto.
  Qed.

  Theorem C121_map : forall radius cmap levels a, wf a ->
    match plot_map c radius cmap levels a with
    | Ok ds => known a /\ Forall legal (map_wanted c radius cmap levels a) /\ Forall2 drawn ds (map_wanted c radius cmap levels a)
    | Throw => ~ (known a /\ Forall legal (map_wanted c radius cmap levels a))
    | UB => False
    end.
  Proof.
    intros radius cmap levels a W. unfold plot_map. pose proof (properties_spec V c a W) as Q.
    destruct (properties c a) as [p| |]; cbn [obind]; [|tauto|contradiction]. destruct Q as [K (E0 & P1 & P2 & P3 & E1 & E2 & E3)].
    cbv zeta.
    set (st := with_defaults (Some (p_site p)) None _). set (hp := with_defaults (Some (p_hopping p)) None _).
    set (s := first [site a; axes c a; only "radius" radius; only "cmap" cmap]).
    set (h := first [hop a; axes c a; only "color" (v_gray c)]).
    set (half := only "alpha" (v_half c)).
    assert (P2k : proper [("radius"%string, radius); ("cmap"%string, cmap)]).
    { constructor; [intros [E|[]]; discriminate|]. constructor; [intros []|constructor]. }
    assert (Ps : proper st) by (apply with_defaults_proper; exact P2k).
    assert (Ph : proper hp) by (apply with_defaults_proper, proper_one).
    assert (Es : forall k, value st k = s k).
    { intros k. unfold st. rewrite with_defaults_value by (try exact P1; try exact I; exact P2k). cbn [given].
      unfold s. cbn [first get]. rewrite E1. cbn [first get]. destruct (site a k); [reflexivity|]. destruct (axes c a k); [reflexivity|].
      rewrite <- get_value. cbn [first get]. unfold only. rewrite (String.eqb_sym k "radius"), (String.eqb_sym k "cmap").
      destruct (String.eqb "radius" k); [reflexivity|]. destruct (String.eqb "cmap" k); reflexivity. }
    assert (Eh : forall k, value hp k = h k).
    { intros k. unfold hp. rewrite with_defaults_value by (try exact P2; try exact I; apply proper_one). cbn [given].
      unfold h. cbn [first]. rewrite E2, value_one. cbn [first]. destruct (hop a k); [reflexivity|]. destruct (axes c a k); [reflexivity|]. destruct (only "color" (v_gray c) k); reflexivity. }
    set (q := Props (p_axes p) (p_margin p) (set st "alpha" (v_half c)) (set hp "alpha" (v_half c)) (p_boundary p)).
    assert (alpha_first : forall (d : list (string * V)) l, (forall k, value d k = l k) -> forall k, value (set d "alpha" (v_half c)) k = first [half; l] k).
    { intros d l E k. rewrite value_set, E. unfold half. cbn [first]. unfold only. destruct (String.eqb k "alpha"); [reflexivity|]. destruct (l k); reflexivity. }
    assert (Hq : props_are V q (the_axes V c a) (first [half; s]) (first [half; h]) (boundary_options c a)).
    { split; [exact E0|]. split; [apply set_proper, Ps|]. split; [apply set_proper, Ph|]. split; [exact P3|].
      split; [apply alpha_first, Es|]. split; [apply alpha_first, Eh|exact E3]. }
    assert (M : Forall2 (meets V) [call PlotSites [] st; call PlotHoppings [] hp]
                     [Want PlotSites [] s (site a); Want PlotHoppings [] h (hop a)]).
    { constructor; [apply call_spec; exact Es|]. constructor; [apply call_spec; exact Eh|constructor]. }
    assert (Hs : first [half; s] "axes"%string <> None).
    { unfold half, s. cbn. destruct (site a "axes"); discriminate. }
    assert (Hh : first [half; h] "axes"%string <> None).
    { unfold half, h. cbn. destruct (hop a "axes"); discriminate. }
    assert (Hb : forall k, first [boundary_options c a; first [half; h]; only "color" (v_red c)] k = first [boundary_options c a; half] k).
    { intros k. unfold boundary_options, half, h. cbn. destruct (bnd a k); [reflexivity|]. destruct (hop a k); [reflexivity|].
      destruct (axes c a k); [reflexivity|]. unfold only. destruct (String.eqb_spec k "color") as [->|N]; [reflexivity|].
      destruct (String.eqb k "alpha"); reflexivity. }
    pose proof (both a q _ _ _ _ (first [half; s]) (first [half; h]) (first [boundary_options c a; half]) _ _ levels Hq Hs Hh
                     (fun k => eq_refl) (fun k => eq_refl) Hb M) as B.
    change (map_wanted c radius cmap levels a) with
      (wanted a [Want PlotSites [] s (site a); Want PlotHoppings [] h (hop a)] (first [half; s]) (first [half; h]) (first [boundary_options c a; half]) levels).
    destruct (obind _ _); tauto.
  Qed.

  (** ** Do the options of the user arrive? *)
  Lemma arrives : forall (d : draw V) (w : want V) k v, drawn d w -> legal w -> w_asked w k = Some v -> w_opts w k = Some v -> value (d_opts d) k = Some v.
  Proof.
    intros d w k v [_ D] L A O. rewrite D. cbn. destruct (value (w_fixed w) k) eqn:F; [|rewrite O; reflexivity].
    exfalso. assert (I : In k (map fst (w_fixed w))).
    { destruct (in_dec String.string_dec k (map fst (w_fixed w))) as [I|N]; [exact I|]. apply value_none in N. congruence. }
    specialize (L k (in_or_app _ _ _ (or_intror I))). congruence.
  Qed.
  Lemma Forall2_arrives : forall (P : string -> want V -> Prop) ds W, Forall2 drawn ds W -> Forall legal W ->
    Forall (fun w => forall k v, P k w -> w_asked w k = Some v -> w_opts w k = Some v) W ->
    Forall2 (fun d w => forall k v, P k w -> w_asked w k = Some v -> value (d_opts d) k = Some v) ds W.
  Proof.
    intros P ds W H. induction H as [|d w ds W H1 H2 IH]; intros L O; constructor; inversion L; inversion O; subst.
    - intros k v Hk A. eapply arrives; try eassumption. eauto.
    - apply IH; assumption.
  Qed.
  Lemma wanted_Forall : forall (P : want V -> Prop) a hw s h b levels, Forall P hw ->
    (forall l o, P (Want PlotSites [("offset"%string, o)] (first [s; only "blend" (l_blend l)]) (site a)) /\
                 P (Want PlotHoppings [("offset"%string, o)] (first [h; only "blend" (l_blend l)]) (hop a))) ->
    (forall l (ob : V * V), P (Want PlotHoppings [("offset"%string, fst ob); ("boundary"%string, snd ob)] (first [b; only "blend" (l_blend l)]) (first [bnd a; hop a]))) ->
    Forall P (wanted a hw s h b levels).
  Proof.
    intros P a hw s h b levels H1 H2 H3. unfold wanted. apply Forall_app. split; [exact H1|]. apply Forall_app. split.
    - apply Forall_flat_map. apply Forall_forall. intros l _. apply Forall_flat_map. apply Forall_forall. intros o _.
      destruct (H2 l o). repeat constructor; assumption.
    - apply Forall_flat_map. apply Forall_forall. intros l _. apply Forall_map. apply Forall_forall. intros ob _. apply H3.
  Qed.

  Definition C121_claim : Prop :=
    (forall radius levels a ds, wf a -> plot_structure c radius levels a = Ok ds ->
       Forall2 obeyed ds (structure_wanted c radius levels a)) /\
    (forall radius cmap levels a ds, wf a -> plot_map c radius cmap levels a = Ok ds ->
       Forall2 obeyed ds (map_wanted c radius cmap levels a)).

  Theorem C121_partial :
    (forall radius levels a ds, wf a -> plot_structure c radius levels a = Ok ds ->
       Forall2 obeyed ds (structure_wanted c radius levels a)) /\
    (** in the plot of data all options but [alpha] arrive, and that one in the home cell *)
    (forall radius cmap levels a ds, wf a -> plot_map c radius cmap levels a = Ok ds ->
       Forall2 (fun d w => forall k v, k <> "alpha"%string \/ w_fixed w = [] -> w_asked w k = Some v -> value (d_opts d) k = Some v)
               ds (map_wanted c radius cmap levels a)).
  Proof.
    split.
    - intros radius levels a ds W E. pose proof (C121_structure radius levels a W) as H. rewrite E in H. destruct H as (_ & L & D).
      pose proof (Forall2_arrives (fun _ _ => True) ds _ D L) as F.
      assert (G : forall A B (R S : A -> B -> Prop) l m, (forall x y, R x y -> S x y) -> Forall2 R l m -> Forall2 S l m).
      { intros A B R S l m I Q. induction Q; constructor; auto. }
      eapply G; [|apply F].
      + intros d w Q k v A. apply Q; [exact I|exact A].
      + unfold structure_wanted. apply wanted_Forall.
        * constructor; [|constructor; [|constructor]]; intros k v _ A; cbn in A |- *; rewrite A; reflexivity.
        * intros l o. split; intros k v _ A; cbn in A |- *; rewrite A; reflexivity.
        * intros l ob k v _ A. cbn [w_asked w_opts] in A |- *. unfold boundary_options. cbn in A |- *.
          destruct (bnd a k); [exact A|]. destruct (hop a k); [exact A|discriminate].
    - intros radius cmap levels a ds W E. pose proof (C121_map radius cmap levels a W) as H. rewrite E in H. destruct H as (_ & L & D).
      apply (Forall2_arrives (fun k w => k <> "alpha"%string \/ w_fixed w = []) ds _ D L).
      unfold map_wanted. apply wanted_Forall.
      + constructor; [|constructor; [|constructor]]; intros k v _ A; cbn in A |- *; rewrite A; reflexivity.
      + intros l o. split; intros k v [N|F] A; try discriminate F; cbn in A |- *; unfold only at 1; apply String.eqb_neq in N; rewrite N, A; reflexivity.
      + intros l ob k v _ A. cbn [w_asked w_opts] in A |- *. unfold boundary_options. cbn in A |- *.
        destruct (bnd a k); [exact A|]. destruct (hop a k); [exact A|discriminate].
  Qed.

  (** Handing the finished properties over once more changes nothing. *)
  Theorem C121_again : forall a p, wf a -> properties c a = Ok p ->
    exists q, properties c (keywords p) = Ok q /\ p_axes q = p_axes p /\ p_margin q = p_margin p /\
      (forall k, value (p_site q) k = value (p_site p) k) /\ (forall k, value (p_hopping q) k = value (p_hopping p) k) /\
      (forall k, value (p_boundary q) k = value (p_boundary p) k).
  Proof.
    intros a p W E. pose proof (properties_spec V c a W) as H. rewrite E in H. destruct H as [_ H].
    pose proof (properties_spec V c (keywords p) (keywords_wf V p _ _ _ _ H)) as Q.
    destruct H as (E0 & P1 & P2 & P3 & E1 & E2 & E3).
    destruct (properties c (keywords p)) as [q| |] eqn:Eq; [|exfalso; apply Q, keywords_known|contradiction].
    destruct Q as [_ (Q0 & Q1 & Q2 & Q3 & F1 & F2 & F3)]. exists q. split; [reflexivity|]. split; [exact Q0|].
    split; [unfold properties in Eq; cbn in Eq; injection Eq as <-; reflexivity|].
    assert (As : value (p_site p) "axes" <> None) by (rewrite E1; apply axes_some).
    assert (Ah : value (p_hopping p) "axes" <> None) by (rewrite E2; apply axes_some).
    split; [|split].
    - intros k. rewrite F1. unfold axes, site, keywords. cbn [a_sites a_site a_axes given]. apply axes_there. exact As.
    - intros k. rewrite F2. unfold axes, hop, keywords. cbn [a_hoppings a_hopping a_axes given]. apply axes_there. exact Ah.
    - intros k. rewrite F3. unfold boundary_options at 1, axes, bnd, hop, keywords. cbn [a_hoppings a_hopping a_boundary a_axes given].
      cbn. rewrite E3. unfold boundary_options. cbn. destruct (bnd a k) eqn:B; [reflexivity|]. rewrite E2. cbn. destruct (hop a k); [reflexivity|].
      destruct (axes c a k) eqn:X; [reflexivity|]. destruct (only "color" (v_red c) k); [reflexivity|].
      unfold only. destruct (String.eqb_spec k "axes") as [->|N]; [|reflexivity]. unfold axes, only in X. cbn in X. discriminate.
  Qed.
End Main.

(* ------------------------------------------------ concrete plots *)
Section Concrete.
  Local Open Scope string_scope. Local Open Scope list_scope.
  Definition shop : values string := Values "xyz" "True" "red" "gray" "0.5".
  Definition one_copy : list (level string) := [Level "0.5" ["a1"] [("0", "a1")]].
  Definition clear_sites : args string := Args None (Some [("alpha", "1")]) None None None None [].
  Lemma clear_sites_wf : wf clear_sites.
  Proof. repeat split; cbn; try exact I; try (intros o; discriminate). constructor; [intros []|constructor]. Qed.

  (** The user's [alpha] is lost in the copies of the cell. *)
  Theorem C121_refuted : ~ C121_claim string shop.
  Proof.
    intros [_ H]. specialize (H "r" "m" one_copy clear_sites _ clear_sites_wf eq_refl). vm_compute in H.
    inversion H as [|? ? ? ? _ H1]; subst. inversion H1 as [|? ? ? ? _ H2]; subst. inversion H2 as [|? ? ? ? H3 _]; subst.
    specialize (H3 "alpha" "1" eq_refl). vm_compute in H3. discriminate.
  Qed.

  (** An option that is good for the cell alone is an error as soon as it is repeated. *)
  Theorem C121_offset_refuted : ~ (forall radius levels (a : args string) ds, wf a -> plot_structure shop radius [] a = Ok ds ->
    exists ds', plot_structure shop radius levels a = Ok ds').
  Proof.
    intros H. edestruct (H None one_copy (Args None (Some [("offset", "x")]) None None None None [])) as [ds E]; [|reflexivity|discriminate].
    repeat split; cbn; try exact I; try (intros o; discriminate). constructor; [intros []|constructor].
  Qed.

  (** Given both forms, the plural one replaces the other without a word. *)
  Example C121_both_forms : properties shop (Args None (Some [("radius", "1")]) None None (Some (Some [("color", "k")])) None []) =
    Ok (Props "xyz" "True" [("axes", "xyz"); ("color", "k")] [("axes", "xyz")] [("color", "red"); ("axes", "xyz")]).
  Proof. reflexivity. Qed.

  Example C121_example :
    plot_structure shop (Some "r") one_copy
      (Args (Some "xz") (Some [("radius", "big")]) (Some [("width", "2")]) (Some [("color", "blue")]) None None [("add_margin", "False")]) =
    Ok [Draw PlotHoppings [("axes", "xz"); ("width", "2")];
        Draw PlotSites [("axes", "xz"); ("radius", "big")];
        Draw PlotSites [("offset", "a1"); ("blend", "0.5"); ("axes", "xz"); ("radius", "big")];
        Draw PlotHoppings [("offset", "a1"); ("blend", "0.5"); ("axes", "xz"); ("width", "2")];
        Draw PlotHoppings [("offset", "0"); ("boundary", "a1"); ("blend", "0.5"); ("color", "blue"); ("axes", "xz"); ("width", "2")]].
  Proof. vm_compute. reflexivity. Qed.
  Example C121_unknown : plot_structure shop None [] (Args None None None None None None [("colour", "k")]) = Throw.
  Proof. reflexivity. Qed.
End Concrete.
