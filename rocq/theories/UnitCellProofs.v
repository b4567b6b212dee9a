(* Registries and the optimized unit cell of a lattice satisfying the API invariant. *)
From Verif Require Import Base Rle Blocks Foundation Scalar Lattice LatticeSpec LatticeProofs IndexProofs DanglingProofs.
From Coq Require Import Permutation Sorted.

(* ------------------------------------------------------------ placing by key *)
Definition placing {A B} (err : outcome (list (option B))) (k : A -> nat) (v : A -> B) (a : list (option B)) (x : A) :=
  if k x <? length a then Ok (upd a (k x) (Some (v x))) else err.

Lemma place_gen : forall {A B} err (k : A -> nat) (v : A -> B) xs a,
  (forall x, In x xs -> k x < length a) -> NoDup (map k xs) ->
  exists a', ofold (placing err k v) xs a = Ok a' /\ length a' = length a /\
    (forall x, In x xs -> nth_error a' (k x) = Some (Some (v x))) /\
    (forall i, ~ In i (map k xs) -> nth_error a' i = nth_error a i).
Proof.
  intros A B err k v. induction xs as [|x xs IH]; intros a Hk ND; cbn [ofold].
  - exists a. repeat split; auto. intros x [].
  - cbn [map] in ND. inversion ND as [|? ? N1 N2]; subst. unfold placing at 1.
    assert (Hx : k x < length a) by (apply Hk; left; auto). destruct (Nat.ltb_spec (k x) (length a)); [|lia].
    cbn [obind]. destruct (IH (upd a (k x) (Some (v x)))) as (a' & E & L & I1 & I2).
    + intros y Hy. rewrite upd_length. apply Hk. right; auto.
    + auto.
    + exists a'. split; [exact E|]. split; [rewrite L; apply upd_length|]. split.
      * intros y [<-|Hy]; [|auto]. rewrite I2 by auto. apply nth_error_upd_eq. auto.
      * intros i Hi. cbn [map] in Hi. rewrite I2 by (intros X; apply Hi; right; auto).
        apply nth_error_upd_neq. intros X. apply Hi. left; auto.
Qed.

Lemma place_fails : forall {A B} err (k : A -> nat) (v : A -> B) xs a x, (forall b, err <> Ok b) ->
  In x xs -> length a <= k x -> forall a', ofold (placing err k v) xs a <> Ok a'.
Proof.
  intros A B err k v. induction xs as [|y xs IH]; intros a x He Hx Hk a'; [contradiction|]. cbn [ofold].
  unfold placing at 1. destruct (Nat.ltb_spec (k y) (length a)).
  - cbn [obind]. destruct Hx as [->|Hx]; [lia|]. apply (IH _ x); auto. rewrite upd_length. auto.
  - intros H1. destruct err; cbn [obind] in H1; try discriminate. eapply He; eauto.
Qed.

(** All keys 0..n-1, in any order. *)
Lemma place_all : forall {A B} err (k : A -> nat) (v : A -> B) l xs,
  map k l = seq 0 (length l) -> Permutation xs l ->
  ofold (placing err k v) xs (repeat None (length xs)) = Ok (map Some (map v l)).
Proof.
  intros A B err k v l xs Hl Hp.
  destruct (place_gen err k v xs (repeat None (length xs))) as (a' & E & L & I1 & I2).
  - intros x Hx. rewrite repeat_length. rewrite (Permutation_length Hp).
    assert (H : In (k x) (map k l)) by (apply in_map; eapply Permutation_in; eauto). rewrite Hl in H. apply in_seq in H. lia.
  - eapply Permutation_NoDup; [apply Permutation_map; apply Permutation_sym; exact Hp|]. rewrite Hl. apply seq_NoDup.
  - rewrite E. f_equal. rewrite repeat_length in L. rewrite (Permutation_length Hp) in L.
    assert (G : forall i x, nth_error l i = Some x -> nth_error a' i = Some (Some (v x))).
    { intros i x Hx. assert (Hk : k x = i).
      { assert (H1 : nth_error (map k l) i = Some (k x)) by (rewrite nth_error_map, Hx; reflexivity).
        rewrite Hl in H1. assert (Hi : i < length l) by (apply nth_error_Some; congruence).
        rewrite (nth_error_nth_ok _ i 0) in H1 by (rewrite seq_length; auto). rewrite seq_nth in H1 by auto. injection H1. lia. }
      rewrite <- Hk. apply I1. eapply Permutation_in; [apply Permutation_sym; exact Hp|]. eapply nth_error_In; eauto. }
    clear - G L. revert a' L G. induction l as [|x l IH]; intros [|y a'] L G; cbn in L; try lia; [reflexivity|].
    cbn [map]. f_equal.
    + specialize (G 0 x eq_refl). cbn in G. congruence.
    + apply IH; [lia|]. intros i z Hz. apply (G (S i)). exact Hz.
Qed.

Lemma all_some_map : forall {A} (l : list A), all_some (map Some l) = Ok l.
Proof. induction l as [|x l IH]; [reflexivity|]. cbn [map all_some]. rewrite IH. reflexivity. Qed.

(* ------------------------------------------------------------ stable sort *)
Lemma sinsert_perm : forall {A} (key : A -> nat) x l, Permutation (x :: l) (sinsert key x l).
Proof.
  intros A key x. induction l as [|y l IH]; cbn [sinsert]; [auto|].
  destruct (key x <? key y); [auto|]. eapply perm_trans; [apply perm_swap|]. apply perm_skip. auto.
Qed.

Lemma stable_sort_perm_gen : forall {A} (key : A -> nat) l acc,
  Permutation (l ++ acc) (fold_left (fun acc x => sinsert key x acc) l acc).
Proof.
  intros A key. induction l as [|x l IH]; intros acc; [auto|]. cbn [app fold_left].
  eapply perm_trans; [|apply IH]. eapply perm_trans; [apply Permutation_middle|].
  apply Permutation_app_head. apply sinsert_perm.
Qed.

Lemma stable_sort_perm : forall {A} (key : A -> nat) l, Permutation l (stable_sort key l).
Proof. intros. unfold stable_sort. eapply perm_trans; [|apply stable_sort_perm_gen]. rewrite app_nil_r. auto. Qed.

Definition lexr {A} (key : A -> nat) (r : A -> A -> Prop) (a b : A) : Prop :=
  key a < key b \/ (key a = key b /\ r a b).

Lemma sinsert_sorted : forall {A} (key : A -> nat) (r : A -> A -> Prop) x l,
  StronglySorted (lexr key r) l -> (forall y, In y l -> r y x) -> StronglySorted (lexr key r) (sinsert key x l).
Proof.
  intros A key r x. induction l as [|y l IH]; intros S H; cbn [sinsert].
  - constructor; constructor.
  - inversion S as [|? ? S1 S2]; subst. destruct (Nat.ltb_spec (key x) (key y)).
    + constructor; [exact S|]. constructor; [left; auto|].
      rewrite Forall_forall in *. intros z Hz. specialize (S2 z Hz). left. destruct S2 as [S2|[S2 _]]; lia.
    + constructor; [apply IH; auto; intros; apply H; right; auto|].
      rewrite Forall_forall in *. intros z Hz.
      apply (Permutation_in _ (Permutation_sym (sinsert_perm key x l))) in Hz. destruct Hz as [<-|Hz]; [|auto].
      specialize (H y (or_introl eq_refl)). unfold lexr. destruct (Nat.eq_dec (key y) (key x)); [right; auto|left; lia].
Qed.

Lemma stable_sort_sorted : forall {A} (key : A -> nat) (r : A -> A -> Prop) l,
  StronglySorted r l -> StronglySorted (lexr key r) (stable_sort key l).
Proof.
  intros A key r l S. unfold stable_sort.
  assert (G : forall l acc, StronglySorted r l -> StronglySorted (lexr key r) acc ->
     (forall y x, In y acc -> In x l -> r y x) ->
     StronglySorted (lexr key r) (fold_left (fun acc x => sinsert key x acc) l acc)).
  { clear. induction l as [|x l IH]; intros acc S1 S2 H; [exact S2|]. cbn [fold_left]. inversion S1 as [|? ? S3 S4]; subst.
    apply IH; auto.
    - apply sinsert_sorted; auto. intros y Hy. apply H; [auto|left; auto].
    - intros y z Hy Hz. apply (Permutation_in _ (Permutation_sym (sinsert_perm key x acc))) in Hy.
      destruct Hy as [<-|Hy]; [rewrite Forall_forall in S4; auto|]. apply H; [auto|right; auto]. }
  apply G; auto; [constructor|intros ? ? []].
Qed.

Lemma SS_nth : forall {A} (r : A -> A -> Prop) l i j a b, StronglySorted r l -> i < j ->
  nth_error l i = Some a -> nth_error l j = Some b -> r a b.
Proof.
  intros A r. induction l as [|x l IH]; intros i j a b S Hij Ha Hb; [destruct i; discriminate|].
  inversion S as [|? ? S1 S2]; subst. destruct i, j; cbn [nth_error] in *; try lia.
  - injection Ha as <-. rewrite Forall_forall in S2. apply S2. eapply nth_error_In; eauto.
  - apply (IH i j a b); auto. lia.
Qed.

(* ------------------------------------------------------------ index_of *)
Lemma index_of_spec : forall {A} (p : A -> bool) l, (exists x, In x l /\ p x = true) ->
  exists i x, index_of p l = Ok i /\ nth_error l i = Some x /\ p x = true.
Proof.
  intros A p. induction l as [|y l IH]; intros (x & Hx & Hp); [contradiction|]. cbn [index_of].
  destruct (p y) eqn:E.
  - exists 0, y. auto.
  - destruct Hx as [->|Hx]; [congruence|]. destruct IH as (i & z & E1 & E2 & E3); [eauto|].
    exists (S i), z. rewrite E1. auto.
Qed.

Lemma index_of_map : forall {A B} (p : B -> bool) (g : A -> B) l, index_of (fun x => p (g x)) l = index_of p (map g l).
Proof. intros A B p g. induction l as [|x l IH]; [reflexivity|]. cbn [index_of map]. destruct (p (g x)); [reflexivity|]. rewrite IH. reflexivity. Qed.

(* ------------------------------------------------------------ adding terms *)
Section Terms.
  Context {P : Type}.
  Notation usite := (usite P).

  Definition same_frame (a b : list usite) : Prop :=
    map (fun u => (u_pos u, u_norb u, u_uid u, u_alias u)) a = map (fun u => (u_pos u, u_norb u, u_uid u, u_alias u)) b.

  Lemma same_frame_uid : forall a b, same_frame a b -> map (@u_uid P) a = map (@u_uid P) b.
  Proof. intros a b H. unfold same_frame in H. apply (f_equal (map (fun q => snd (fst q)))) in H. rewrite !map_map in H. exact H. Qed.
  Lemma same_frame_len : forall a b, same_frame a b -> length a = length b.
  Proof. intros a b H. apply (f_equal (@length _)) in H. rewrite !map_length in H. exact H. Qed.
  Lemma same_frame_nth : forall a b i u, same_frame a b -> nth_error a i = Some u ->
    exists v, nth_error b i = Some v /\ u_pos v = u_pos u /\ u_norb v = u_norb u /\ u_uid v = u_uid u /\ u_alias v = u_alias u.
  Proof.
    intros a b i u H Hu. unfold same_frame in H.
    assert (E : nth_error (map (fun u => (u_pos u, u_norb u, u_uid u, u_alias u)) b) i = Some (u_pos u, u_norb u, u_uid u, u_alias u)).
    { rewrite <- H, nth_error_map, Hu. reflexivity. }
    rewrite nth_error_map in E. destruct (nth_error b i) as [v|]; [|discriminate]. injection E as E1 E2 E3 E4.
    exists v. auto.
  Qed.

  (** Index of a unique id. *)
  Definition idx_of (uids : list nat) (x : nat) : nat := match index_of (fun y => y =? x) uids with Ok i => i | _ => 0 end.

  Lemma idx_of_ok : forall uids x, In x uids -> index_of (fun y => y =? x) uids = Ok (idx_of uids x) /\ nth_error uids (idx_of uids x) = Some x.
  Proof.
    intros uids x H. destruct (index_of_spec (fun y => y =? x) uids) as (i & z & E1 & E2 & E3).
    - exists x. split; [auto|apply Nat.eqb_refl].
    - apply Nat.eqb_eq in E3. subst z. unfold idx_of. rewrite E1. auto.
  Qed.

  Definition entry (uids : list nat) (uid : nat) (ft : nat * term) : list hop :=
    (if uid =? t_from (snd ft) then [Hop (t_rel (snd ft)) (idx_of uids (t_to (snd ft))) (fst ft) false] else []) ++
    (if uid =? t_to (snd ft) then [Hop (neg3 (t_rel (snd ft))) (idx_of uids (t_from (snd ft))) (fst ft) true] else []).

  Definition with_hops (hs : nat -> list hop) (sites : list usite) : list usite :=
    map (fun u => USite (u_pos u) (u_norb u) (u_uid u) (u_alias u) (u_hops u ++ hs (u_uid u))) sites.

  Lemma push_hop_ok : forall sites x h, NoDup (map (@u_uid P) sites) -> In x (map (@u_uid P) sites) ->
    push_hop sites (idx_of (map (@u_uid P) sites) x) h = Ok (with_hops (fun uid => if uid =? x then [h] else []) sites).
  Proof.
    intros sites x h ND Hx. destruct (idx_of_ok _ _ Hx) as [_ E]. set (i := idx_of _ x) in *. clearbody i.
    unfold push_hop. rewrite nth_error_map in E. destruct (nth_error sites i) as [u|] eqn:Eu; [|discriminate]. injection E as E.
    unfold aget. rewrite Eu. cbn [obind]. f_equal. clear Hx.
    revert i Eu. induction sites as [|v sites IH]; intros [|i] Eu; cbn [nth_error] in Eu; try discriminate.
    - injection Eu as ->. cbn [upd with_hops map]. rewrite E, Nat.eqb_refl. f_equal.
      cbn [map] in ND. inversion ND as [|? ? N1 N2]; subst. clear - N1.
      induction sites as [|w sites IH]; [reflexivity|]. cbn [map] in *.
      destruct (Nat.eqb_spec (u_uid w) (u_uid u)) as [H|H]; [exfalso; apply N1; left; auto|].
      rewrite app_nil_r. destruct w as [wp wn wi wa wh]; cbn [u_pos u_norb u_uid u_alias u_hops] in *. f_equal. apply IH. intros X; apply N1; right; auto.
    - cbn [upd with_hops map]. cbn [map] in ND. inversion ND as [|? ? N1 N2]; subst. f_equal.
      + destruct (Nat.eqb_spec (u_uid v) (u_uid u)) as [H|H].
        * exfalso. apply N1. rewrite H. apply in_map. eapply nth_error_In; eauto.
        * rewrite app_nil_r. destruct v as [wp wn wi wa wh]; reflexivity.
      + apply IH; auto.
  Qed.

  Lemma with_hops_uids : forall hs sites, map (@u_uid P) (with_hops hs sites) = map (@u_uid P) sites.
  Proof. intros. unfold with_hops. rewrite map_map. reflexivity. Qed.

  Lemma with_hops_twice : forall f g sites, with_hops g (with_hops f sites) = with_hops (fun uid => f uid ++ g uid) sites.
  Proof. intros. unfold with_hops. rewrite map_map. apply map_ext. intros u. cbn. rewrite app_assoc. reflexivity. Qed.

  Lemma with_hops_ext : forall f g sites, (forall x, f x = g x) -> with_hops f sites = with_hops g sites.
  Proof. intros. unfold with_hops. apply map_ext. intros u. rewrite H. reflexivity. Qed.

  Lemma with_hops_nil : forall sites, with_hops (fun _ => []) sites = sites.
  Proof. intros. unfold with_hops. rewrite <- (map_id sites) at 2. apply map_ext. intros []. cbn. rewrite app_nil_r. reflexivity. Qed.

  Lemma add_term_ok : forall fid t sites, NoDup (map (@u_uid P) sites) ->
    In (t_from t) (map (@u_uid P) sites) -> In (t_to t) (map (@u_uid P) sites) ->
    add_term fid sites t = Ok (with_hops (fun uid => entry (map (@u_uid P) sites) uid (fid, t)) sites).
  Proof.
    intros fid t sites ND Hf Ht. unfold add_term.
    rewrite (index_of_map (fun y => y =? t_from t) (@u_uid P)).
    destruct (idx_of_ok _ _ Hf) as [E1 _]. rewrite E1. cbn [obind].
    rewrite (index_of_map (fun y => y =? t_to t) (@u_uid P)).
    destruct (idx_of_ok _ _ Ht) as [E2 _]. rewrite E2. cbn [obind].
    rewrite push_hop_ok by auto. cbn [obind].
    set (s1 := with_hops _ sites). assert (U : map (@u_uid P) s1 = map (@u_uid P) sites) by apply with_hops_uids.
    rewrite <- U at 1. rewrite push_hop_ok by (rewrite U; auto). unfold s1. rewrite with_hops_twice.
    f_equal. 
  Qed.

  Lemma add_terms_ok : forall (fts : list (nat * term)) sites, NoDup (map (@u_uid P) sites) ->
    (forall ft, In ft fts -> In (t_from (snd ft)) (map (@u_uid P) sites) /\ In (t_to (snd ft)) (map (@u_uid P) sites)) ->
    ofold (fun sites ft => add_term (fst ft) sites (snd ft)) fts sites
    = Ok (with_hops (fun uid => flat_map (entry (map (@u_uid P) sites) uid) fts) sites).
  Proof.
    induction fts as [|[fid t] fts IH]; intros sites ND H; cbn [ofold].
    - cbn [flat_map]. rewrite with_hops_nil. reflexivity.
    - destruct (H (fid, t) (or_introl eq_refl)) as [H1 H2]. cbn [fst snd] in *. rewrite add_term_ok by auto. cbn [obind].
      set (s1 := with_hops _ sites). assert (U : map (@u_uid P) s1 = map (@u_uid P) sites) by apply with_hops_uids.
      rewrite IH.
      + rewrite U. unfold s1. rewrite with_hops_twice. reflexivity.
      + rewrite U; auto.
      + rewrite U. intros ft Hft. apply H. right; auto.
  Qed.
End Terms.

Lemma ofold_nested : forall {A B C} (f : A -> C -> outcome A) (g : B -> list C) l a,
  ofold (fun a b => ofold f (g b) a) l a = ofold f (flat_map g l) a.
Proof.
  intros A B C f g. induction l as [|b l IH]; intros a; [reflexivity|]. cbn [ofold flat_map]. rewrite ofold_app.
  destruct (ofold f (g b) a); cbn [obind]; auto.
Qed.

Lemma ofold_map : forall {A B C} (f : A -> C -> outcome A) (g : B -> C) l a,
  ofold f (map g l) a = ofold (fun a b => f a (g b)) l a.
Proof. intros A B C f g. induction l as [|b l IH]; intros a; [reflexivity|]. cbn [map ofold]. destruct (f a (g b)); cbn [obind]; auto. Qed.

(** (family id, term) pairs in iteration order. *)
Definition fam_terms {R} (fams : list (family R)) : list (nat * term) :=
  flat_map (fun f => map (fun t => (fm_id f, t)) (fm_terms f)) fams.

Definition uc_order {P} : usite P -> usite P -> Prop :=
  lexr (@u_norb P) (lexr (@u_alias P) (fun a b => u_uid a < u_uid b)).

Section Cell.
  Variable R : scalar.
  Variable P : Type.
  Variable l : lattice R P.
  Hypothesis I : lat_inv R P l.

  Definition site_of (s : sublattice R P) : usite P := USite (sb_pos s) (m_cols (sb_energy s)) (sb_uid s) (sb_alias s) [].

  Variable subs : list (sublattice R P).
  Variable fams : list (family R).
  Hypothesis Hs : Permutation subs (l_subs l).
  Hypothesis Hf : Permutation fams (l_fams l).

  Definition frame : list (usite P) := stable_sort (@u_norb P) (stable_sort (@u_alias P) (map site_of (l_subs l))).
  Definition uids : list nat := map (@u_uid P) frame.

  Lemma frame_perm : Permutation (map site_of (l_subs l)) frame.
  Proof. unfold frame. eapply perm_trans; [apply stable_sort_perm|]. apply stable_sort_perm. Qed.

  Lemma uids_perm : Permutation (seq 0 (length (l_subs l))) uids.
  Proof.
    unfold uids. rewrite <- (li_uids _ _ _ I). eapply perm_trans; [|apply Permutation_map; apply frame_perm].
    rewrite map_map. apply Permutation_refl.
  Qed.

  Lemma uids_nodup : NoDup uids.
  Proof. eapply Permutation_NoDup; [apply uids_perm|apply seq_NoDup]. Qed.

  Lemma frame_sorted : StronglySorted uc_order frame.
  Proof.
    unfold frame, uc_order. apply stable_sort_sorted. apply stable_sort_sorted.
    assert (G : forall n ls, map (@sb_uid R P) ls = seq n (length ls) ->
       StronglySorted (fun a b : usite P => u_uid a < u_uid b) (map site_of ls)).
    { intros n ls. revert n. induction ls as [|s ls IH]; intros n E; cbn [map length seq] in *; [constructor|].
      injection E as E1 E2. constructor; [eapply IH; eauto|]. apply Forall_forall. intros u Hu.
      apply in_map_iff in Hu. destruct Hu as (s' & <- & Hs'). cbn.
      assert (H : In (sb_uid s') (map (@sb_uid R P) ls)) by (apply in_map; auto). rewrite E2 in H. apply in_seq in H. lia. }
    apply (G 0). apply (li_uids _ _ _ I).
  Qed.

  Lemma term_ids : forall ft, In ft (fam_terms fams) -> In (t_from (snd ft)) uids /\ In (t_to (snd ft)) uids.
  Proof.
    intros ft H. unfold fam_terms in H. apply in_flat_map in H. destruct H as (f & Hin & Ht).
    apply in_map_iff in Ht. destruct Ht as (t & <- & Ht). cbn [snd].
    apply (Permutation_in _ Hf) in Hin.
    destruct (li_terms _ _ _ I f t Hin Ht) as (a & b & A1 & B1 & A2 & B2 & _).
    rewrite <- A2, <- B2.
    assert (G : forall s, In s (l_subs l) -> In (sb_uid s) uids).
    { intros s Hs'. apply (Permutation_in _ uids_perm). rewrite <- (li_uids _ _ _ I). apply in_map. auto. }
    split; apply G; auto.
  Qed.

  Definition cell : list (usite P) := with_hops (fun uid => flat_map (entry uids uid) (fam_terms fams)) frame.

  Lemma unit_cell_ok : unit_cell subs fams = Ok cell.
  Proof.
    unfold unit_cell.
    change (uc_place subs) with (ofold (placing UB (@sb_uid R P) site_of) subs (repeat None (length subs))).
    rewrite (place_all UB _ _ (l_subs l) subs (li_uids _ _ _ I) Hs). cbn [obind]. rewrite all_some_map. cbn [obind].
    fold frame.
    transitivity (ofold (fun sites ft => add_term (fst ft) sites (snd ft)) (fam_terms fams) frame).
    - unfold fam_terms. rewrite <- (ofold_nested (fun sites ft => add_term (fst ft) sites (snd ft))).
      apply ofold_ext_in. intros a f _. rewrite ofold_map. reflexivity.
    - apply add_terms_ok; [apply uids_nodup|apply term_ids].
  Qed.

  Lemma cell_nth : forall i u, nth_error cell i = Some u -> exists v, nth_error frame i = Some v /\
    u_pos u = u_pos v /\ u_norb u = u_norb v /\ u_uid u = u_uid v /\ u_alias u = u_alias v /\
    u_hops u = flat_map (entry uids (u_uid v)) (fam_terms fams).
  Proof.
    intros i u H. unfold cell, with_hops in H. rewrite nth_error_map in H.
    destruct (nth_error frame i) as [v|] eqn:E; [|discriminate]. injection H as <-. exists v. cbn.
    repeat split; auto.
    assert (Hv : In v (map site_of (l_subs l))).
    { eapply Permutation_in; [apply Permutation_sym; apply frame_perm|]. eapply nth_error_In; eauto. }
    apply in_map_iff in Hv. destruct Hv as (s & <- & _). reflexivity.
  Qed.

  Lemma cell_length : length cell = length (l_subs l).
  Proof. unfold cell, with_hops. rewrite map_length. rewrite <- (Permutation_length frame_perm). apply map_length. Qed.

  Lemma cell_uids : map (@u_uid P) cell = uids.
  Proof. apply with_hops_uids. Qed.

  Lemma cell_uid_nth : forall i, nth_error uids i = option_map (@u_uid P) (nth_error cell i).
  Proof. intros. rewrite <- cell_uids. apply nth_error_map. Qed.

  Lemma cell_uid_inj : forall i j u v, nth_error cell i = Some u -> nth_error cell j = Some v -> u_uid u = u_uid v -> i = j.
  Proof.
    intros i j u v Hu Hv E. pose proof uids_nodup as ND. rewrite NoDup_nth_error in ND. apply ND.
    - rewrite <- cell_uids, map_length. apply nth_error_Some. congruence.
    - rewrite !cell_uid_nth, Hu, Hv. cbn. congruence.
  Qed.

  Lemma idx_of_cell : forall x, In x uids -> exists u, nth_error cell (idx_of uids x) = Some u /\ u_uid u = x.
  Proof.
    intros x Hx. destruct (idx_of_ok _ _ Hx) as [_ E]. rewrite cell_uid_nth in E.
    destruct (nth_error cell (idx_of uids x)) as [u|]; [|discriminate]. injection E as E. eauto.
  Qed.

  Lemma idx_of_uid : forall i u, nth_error cell i = Some u -> idx_of uids (u_uid u) = i.
  Proof.
    intros i u H. assert (Hin : In (u_uid u) uids) by (rewrite <- cell_uids; apply in_map; eapply nth_error_In; eauto).
    destruct (idx_of_cell _ Hin) as (v & E & Ev). eapply cell_uid_inj; eauto.
  Qed.

  Lemma cell_sub : forall i u, nth_error cell i = Some u -> exists s, In s (l_subs l) /\
    u_pos u = sb_pos s /\ u_norb u = m_cols (sb_energy s) /\ u_uid u = sb_uid s /\ u_alias u = sb_alias s.
  Proof.
    intros i u H. destruct (cell_nth i u H) as (v & Ev & A & B & C & D & _).
    assert (Hv : In v (map site_of (l_subs l))).
    { eapply Permutation_in; [apply Permutation_sym; apply frame_perm|]. eapply nth_error_In; eauto. }
    apply in_map_iff in Hv. destruct Hv as (s & <- & Hs'). exists s. cbn in *. auto.
  Qed.

  Lemma cell_order : forall i j u v, i < j -> nth_error cell i = Some u -> nth_error cell j = Some v -> uc_order u v.
  Proof.
    intros i j u v Hij Hu Hv. destruct (cell_nth i u Hu) as (u' & Eu & _ & A1 & A2 & A3 & _).
    destruct (cell_nth j v Hv) as (v' & Ev & _ & B1 & B2 & B3 & _).
    pose proof (SS_nth _ _ _ _ _ _ frame_sorted Hij Eu Ev) as O. unfold uc_order, lexr in *.
    rewrite A1, A2, A3, B1, B2, B3. exact O.
  Qed.

  Lemma in_entry : forall uid ft h, In h (entry uids uid ft) <->
    (uid = t_from (snd ft) /\ h = Hop (t_rel (snd ft)) (idx_of uids (t_to (snd ft))) (fst ft) false) \/
    (uid = t_to (snd ft) /\ h = Hop (neg3 (t_rel (snd ft))) (idx_of uids (t_from (snd ft))) (fst ft) true).
  Proof.
    intros uid ft h. unfold entry. rewrite in_app_iff.
    destruct (Nat.eqb_spec uid (t_from (snd ft))), (Nat.eqb_spec uid (t_to (snd ft))); cbn [In]; intuition (try congruence).
  Qed.

  Lemma in_cell_hops : forall i u h, nth_error cell i = Some u -> In h (u_hops u) <->
    exists ft, In ft (fam_terms fams) /\ In h (entry uids (u_uid u) ft).
  Proof.
    intros i u h H. destruct (cell_nth i u H) as (v & _ & _ & _ & E & _ & ->). rewrite E. rewrite in_flat_map. reflexivity.
  Qed.

  Lemma neg3_neg3 : forall r, neg3 (neg3 r) = r.
  Proof. intros [x y z]. unfold neg3. cbn. rewrite !Z.opp_involutive. reflexivity. Qed.

  Lemma bonds_fam : ForallOrdPairs (fun a b => ~ same_bond (snd a) (snd b)) (fam_terms fams).
  Proof.
    assert (Hp : Permutation (map snd (fam_terms fams)) (all_terms l)).
    { unfold fam_terms, all_terms. rewrite flat_map_concat_map, concat_map, map_map.
      rewrite (map_ext _ fm_terms) by (intros f; rewrite map_map; cbn; apply map_id).
      rewrite <- flat_map_concat_map. apply Permutation_flat_map. exact Hf. }
    assert (F : ForallOrdPairs (fun a b => ~ same_bond a b) (map snd (fam_terms fams))).
    { eapply FOP_perm; [|apply Permutation_sym; exact Hp|apply (li_bonds _ _ _ I)].
      intros a b H1 H2. apply H1. apply same_bond_sym. auto. }
    clear - F. induction (fam_terms fams) as [|x L IH]; [constructor|]. cbn [map] in F. inversion F as [|? ? F1 F2]; subst.
    constructor; auto. rewrite Forall_forall in *. intros y Hy. apply F1. apply in_map. auto.
  Qed.

  Lemma no_self : forall ft, In ft (fam_terms fams) -> ~ (t_from (snd ft) = t_to (snd ft) /\ t_rel (snd ft) = zero3).
  Proof.
    intros ft H. unfold fam_terms in H. apply in_flat_map in H. destruct H as (f & Hin & Ht).
    apply in_map_iff in Ht. destruct Ht as (t & <- & Ht). cbn [snd].
    apply (Permutation_in _ Hf) in Hin.
    destruct (li_terms _ _ _ I f t Hin Ht) as (a & b & _ & _ & _ & _ & _ & _ & H). exact H.
  Qed.

  Lemma idx_of_inj : forall x y, In x uids -> In y uids -> idx_of uids x = idx_of uids y -> x = y.
  Proof.
    intros x y Hx Hy E. destruct (idx_of_ok _ _ Hx) as [_ E1]. destruct (idx_of_ok _ _ Hy) as [_ E2]. congruence.
  Qed.

  Lemma neg3_self : forall r, r = neg3 r -> r = zero3.
  Proof. intros [x y z] H. unfold neg3 in H. cbn in H. injection H as H1 H2 H3. unfold zero3. f_equal; lia. Qed.

  Lemma entry_nodup : forall uid, NoDup (map (fun h => (h_rel h, h_to h)) (flat_map (entry uids uid) (fam_terms fams))).
  Proof.
    intros uid. pose proof bonds_fam as B. pose proof no_self as NS. pose proof term_ids as TI.
    induction (fam_terms fams) as [|ft L IH]; [constructor|].
    inversion B as [|? ? B1 B2]; subst. cbn [flat_map]. rewrite map_app. apply NoDup_app_intro.
    - specialize (NS ft (or_introl eq_refl)). destruct (TI ft (or_introl eq_refl)) as [T1 T2]. unfold entry.
      destruct (Nat.eqb_spec uid (t_from (snd ft))), (Nat.eqb_spec uid (t_to (snd ft))); cbn [map app]; repeat constructor; cbn; auto.
      intros [H|[]]. injection H as H1 H2. apply NS. split; [congruence|]. apply neg3_self. auto.
    - apply IH; auto; intros; [apply NS|apply TI]; right; auto.
    - intros q Hq1 Hq2. apply in_map_iff in Hq1. destruct Hq1 as (h1 & E1 & H1). apply in_map_iff in Hq2. destruct Hq2 as (h2 & E2 & H2).
      apply in_flat_map in H2. destruct H2 as (ft2 & I2 & H2). rewrite Forall_forall in B1. specialize (B1 ft2 I2).
      destruct (TI ft (or_introl eq_refl)) as [T1 T2]. destruct (TI ft2 (or_intror I2)) as [T3 T4].
      apply in_entry in H1. apply in_entry in H2. apply B1. unfold same_bond, reversed.
      destruct ft as [f1 [r1 a1 b1]], ft2 as [f2 [r2 a2 b2]]. cbn [fst snd t_from t_to t_rel] in *.
      destruct H1 as [[U1 ->]|[U1 ->]], H2 as [[U2 ->]|[U2 ->]]; cbn [h_rel h_to] in *; subst q;
        apply pair_equal_spec in E2; destruct E2 as [Er Ei]; apply idx_of_inj in Ei; auto.
      + left. congruence.
      + right. f_equal; try congruence. rewrite <- Er. reflexivity.
      + right. f_equal; try congruence. change (r1 = neg3 r2). rewrite Er. symmetry. apply neg3_neg3.
      + left. f_equal; try congruence. rewrite <- (neg3_neg3 r1), <- Er. apply neg3_neg3.
  Qed.

  Lemma cell_uc_ok : uc_ok cell.
  Proof.
    constructor.
    - intros a u h Ha Hh. apply (in_cell_hops a u h Ha) in Hh. destruct Hh as (ft & Hft & He).
      destruct (term_ids ft Hft) as [T1 T2]. apply in_entry in He.
      destruct He as [[_ ->]|[_ ->]]; cbn [h_to].
      + destruct (idx_of_cell _ T2) as (v & E & _). apply nth_error_Some. congruence.
      + destruct (idx_of_cell _ T1) as (v & E & _). apply nth_error_Some. congruence.
    - intros a u Ha. destruct (cell_nth a u Ha) as (v & _ & _ & _ & _ & _ & ->). apply entry_nodup.
    - intros a u h Ha Hh. apply (in_cell_hops a u h Ha) in Hh. destruct Hh as (ft & Hft & He).
      destruct (term_ids ft Hft) as [T1 T2]. apply in_entry in He.
      destruct He as [[U ->]|[U ->]]; cbn [h_to h_rel h_fam h_conj negb].
      + destruct (idx_of_cell _ T2) as (v & E & Ev). exists v. eexists. split; [exact E|].
        split; [apply (in_cell_hops _ v _ E); exists ft; split; [auto|]; apply in_entry; right; split; [auto|reflexivity]|].
        cbn. repeat split; auto. rewrite <- U. apply idx_of_uid. auto.
      + destruct (idx_of_cell _ T1) as (v & E & Ev). exists v. eexists. split; [exact E|].
        split; [apply (in_cell_hops _ v _ E); exists ft; split; [auto|]; apply in_entry; left; split; [auto|reflexivity]|].
        cbn. rewrite neg3_neg3. repeat split; auto. rewrite <- U. apply idx_of_uid. auto.
  Qed.

  Lemma cell_fam : forall u h, In u cell -> In h (u_hops u) -> h_fam h < length (l_fams l).
  Proof.
    intros u h Hu Hh. apply In_nth_error in Hu. destruct Hu as (i & Hu). apply (in_cell_hops i u h Hu) in Hh.
    destruct Hh as (ft & Hft & He).
    assert (G : fst ft < length (l_fams l)).
    { unfold fam_terms in Hft. apply in_flat_map in Hft. destruct Hft as (f & Hin & Ht).
      apply in_map_iff in Ht. destruct Ht as (t & <- & Ht). cbn [fst]. apply (Permutation_in _ Hf) in Hin.
      assert (H : In (fm_id f) (map (@fm_id R) (l_fams l))) by (apply in_map; auto).
      rewrite (li_fids _ _ _ I) in H. apply in_seq in H. lia. }
    apply in_entry in He. destruct He as [[_ ->]|[_ ->]]; exact G.
  Qed.

  Definition norb_of_alias (a : nat) : nat :=
    match find (fun s => sb_uid s =? a) (l_subs l) with Some s => m_cols (sb_energy s) | None => 0 end.

  Lemma sub_uid_inj : forall s1 s2, In s1 (l_subs l) -> In s2 (l_subs l) -> sb_uid s1 = sb_uid s2 -> s1 = s2.
  Proof.
    intros s1 s2 I1 I2 E.
    assert (ND : NoDup (map (@sb_uid R P) (l_subs l))) by (rewrite (li_uids _ _ _ I); apply seq_NoDup).
    revert ND I1 I2. generalize (l_subs l) as L. induction L as [|x L IH]; intros ND I1 I2; [contradiction|].
    cbn in ND. inversion ND; subst. destruct I1 as [->|I1], I2 as [->|I2]; auto.
    - exfalso. apply H1. rewrite E. apply in_map; auto.
    - exfalso. apply H1. rewrite <- E. apply in_map; auto.
  Qed.

  Lemma cell_norb : forall u, In u cell -> u_norb u = norb_of_alias (u_alias u).
  Proof.
    intros u Hu. apply In_nth_error in Hu. destruct Hu as (i & Hu). destruct (cell_sub i u Hu) as (s & Is & _ & E1 & _ & E2).
    rewrite E1, E2. destruct (li_alias _ _ _ I s Is) as (o & Io & O1 & O2 & _).
    unfold norb_of_alias. destruct (find _ _) as [o'|] eqn:F.
    - apply find_some in F. destruct F as [F1 F2]. apply Nat.eqb_eq in F2.
      assert (o' = o) by (apply sub_uid_inj; auto; congruence). subst o'. congruence.
    - exfalso. pose proof (find_none _ _ F o Io) as X. cbn in X. rewrite O1, Nat.eqb_refl in X. discriminate.
  Qed.

  Lemma cell_sorted : forall a b ua ub, a <= b -> nth_error cell a = Some ua -> nth_error cell b = Some ub -> u_norb ua <= u_norb ub.
  Proof.
    intros a b ua ub Hab Ha Hb. destruct (Nat.eq_dec a b) as [->|Hne]; [replace ub with ua by congruence; auto|].
    destruct (cell_order a b ua ub) as [H|[H _]]; auto; lia.
  Qed.

  Lemma cell_contig : forall a b c ua ub uc', a <= b -> b <= c ->
    nth_error cell a = Some ua -> nth_error cell b = Some ub -> nth_error cell c = Some uc' ->
    u_alias ua = u_alias uc' -> u_alias ub = u_alias ua.
  Proof.
    intros a b c ua ub uc' Hab Hbc Ha Hb Hc E.
    assert (N : u_norb ua = u_norb uc').
    { rewrite (cell_norb ua), (cell_norb uc') by (eapply nth_error_In; eauto). congruence. }
    destruct (Nat.eq_dec a b) as [->|H1]; [congruence|]. destruct (Nat.eq_dec b c) as [->|H2]; [congruence|].
    destruct (cell_order a b ua ub) as [O1|[O1 O1']]; auto; [lia| |];
    destruct (cell_order b c ub uc') as [O2|[O2 O2']]; auto; try lia.
    unfold lexr in *. lia.
  Qed.
End Cell.
