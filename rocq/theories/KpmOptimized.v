(* What [optimize] of Kpm.v delivers: the scaled Hamiltonian under a permutation, with slices that
   are breadth-first layers. *)
From Verif Require Import Base Scalar Kpm KpmSpec KpmVec KpmLoops KpmMoments KpmReorder.
From Coq Require Import Ring Permutation.

Section Optimized.
  Variable R : scalar.
  Variable half inv_a b : R.
  Add Ring Rring : (k_ring R).
  Local Open Scope k_scope.
  Local Notation csr := (list (list (nat * R))).
  Local Notation ia := (inverted_a R inv_a).

  (** A renumbering of [0, N). *)
  Definition renumbering (N : nat) (pi : nat -> nat) : Prop :=
    (forall i, i < N -> pi i < N) /\ (forall i j, i < N -> j < N -> pi i = pi j -> i = j).

  (** The optimised object stands for matrix [h] under [pi]. *)
  Record represents (N : nat) (h : csr) (idx : indices) (oh : optimized R) (pi : nat -> nat) : Prop := Represents {
    rp_pi : renumbering N pi;
    rp_idx : oh_idx oh = Indices (map pi (ix_src idx)) (map pi (ix_dest idx));
    rp_wf : wf_csr N (oh_matrix oh);
    rp_coef : forall i j, i < N -> j < N ->
      coef (oh_matrix oh) (pi i) (pi j) = (k1 + k1) * scaled_dense inv_a b (coef h) i j;
    rp_layered : layered R (oh_matrix oh) N (oh_map oh);
    rp_src : forall i, In i (ix_src idx) -> layer (oh_map oh) (pi i) <= sm_src (oh_map oh);
    rp_dest : forall i, In i (ix_dest idx) -> layer (oh_map oh) (pi i) <= sm_dest (oh_map oh);
    rp_diag : ix_src idx = ix_dest idx -> sm_src (oh_map oh) = sm_dest (oh_map oh)
  }.

  Lemma coef_perm : forall (m : csr) i l j, Permutation (entries m i) l -> coef m i j = ksum (fun e => if fst e =? j then snd e else k0) l.
  Proof. intros m i l j H. unfold coef. apply ksum_perm; auto. Qed.

  (** At most one entry per column: its sum is that entry. *)
  Lemma ksum_unique : forall (l : list (nat * R)) (g : nat * R -> R) j, NoDup (map fst l) ->
    ksum (fun e => if fst e =? j then g e else k0) l
    = match find (fun e => fst e =? j) l with Some e => g e | None => k0 end.
  Proof.
    induction l as [|e l IH]; intros g j H; [reflexivity|]. cbn [map] in H. inversion H; subst. rewrite ksum_cons. cbn [find].
    destruct (Nat.eqb_spec (fst e) j) as [<- | Hne]; [|rewrite IH by auto; ring].
    rewrite ksum_0; [ring|]. intros e' He'. destruct (Nat.eqb_spec (fst e') (fst e)) as [E|]; auto.
    exfalso. apply H2. rewrite <- E. apply in_map. auto.
  Qed.
  Lemma find_none_col : forall (l : list (nat * R)) j, find (fun e => fst e =? j) l = None <-> has_col R j l = false.
  Proof.
    induction l as [|e l IH]; intros j; cbn; [tauto|]. destruct (fst e =? j); cbn; [split; discriminate|apply IH].
  Qed.

  (** Element of a scaled row. *)
  Lemma new_row_coef : forall v j (l : list (nat * R)), NoDup (map fst l) ->
    ksum (fun e => if fst e =? j then new_value R inv_a b v e else k0) l
      + (if negb (keqb b k0) && negb (has_col R v l) then (if v =? j then kopp b * ia else k0) else k0)
    = (k1 + k1) * (inv_a * (ksum (fun e => if fst e =? j then snd e else k0) l - b * delta v j)).
  Proof.
    intros v j l H. rewrite !ksum_unique by auto. unfold delta, new_value, inverted_a.
    destruct (find (fun e => fst e =? j) l) as [e|] eqn:F.
    - assert (fst e = j) by (apply find_some in F; destruct F as (_ & F); apply Nat.eqb_eq; auto). subst j.
      destruct (Nat.eqb_spec v (fst e)) as [-> | Hne].
      + assert (Hc : has_col R (fst e) l = true).
        { destruct (has_col R (fst e) l) eqn:E; auto. apply find_none_col in E. congruence. }
        rewrite Hc. cbn. rewrite andb_false_r. ring.
      + destruct (negb (keqb b k0) && negb (has_col R v l)); ring.
    - apply find_none_col in F. destruct (Nat.eqb_spec v j) as [-> | Hne].
      + rewrite F. cbn [negb]. rewrite andb_true_r. destruct (keqb b k0) eqn:Eb; cbn [negb]; [|ring].
        apply (keqb_eq R) in Eb. rewrite Eb. ring.
      + destruct (negb (keqb b k0) && negb (has_col R v l)); ring.
  Qed.

  Section Run.
    Variable N : nat.
    Variable h : csr.
    Variable src : nat.
    Hypothesis Hwf : wf_csr N h.
    Hypothesis Hsrc : src < N.
    Hypothesis Hsym : sym_pattern h.
    Variable s : bfs R.
    Hypothesis I : inv R inv_a b N h src N s.

    Local Notation pi := (posn (bf_map s)).

    Lemma queue_len : length (bf_queue s) = N.
    Proof.
      pose proof (i_len _ _ _ _ _ _ _ _ I). pose proof (queue_max R inv_a b N h src Hsrc N s I). lia.
    Qed.
    Lemma all_queued : forall v, v < N -> In v (bf_queue s).
    Proof.
      intros v Hv. pose proof (i_num _ _ _ _ _ _ _ _ I) as (_ & Hnd & Hlt & _).
      apply (NoDup_length_incl Hnd (l' := seq 0 N)).
      - rewrite seq_length, queue_len. auto.
      - intros w Hw. apply in_seq. specialize (Hlt w Hw). lia.
      - apply in_seq. lia.
    Qed.
    Lemma pi_spec : forall v, v < N -> pi v < N /\ qat R s (pi v) = v.
    Proof.
      intros v Hv. destruct (numbering_posn N _ _ v (i_num _ _ _ _ _ _ _ _ I) (all_queued v Hv)) as (E & _ & Hl).
      rewrite queue_len in Hl. split; auto. unfold qat. apply nth_error_nth with (d := 0) in E. exact E.
    Qed.
    Lemma pi_qat : forall j, j < N -> qat R s j < N /\ pi (qat R s j) = j.
    Proof.
      intros j Hj. pose proof (i_num _ _ _ _ _ _ _ _ I) as (HL & Hnd & Hlt & Hiff).
      assert (E : nth_error (bf_queue s) j = Some (qat R s j)) by (apply nth_error_nth'; rewrite queue_len; auto).
      split; [apply Hlt; eapply nth_error_In; eauto|]. apply Hiff in E. unfold posn. rewrite (nth_error_nth _ _ None E). reflexivity.
    Qed.
    Lemma pi_renumbering : renumbering N pi.
    Proof.
      split; [intros i Hi; apply pi_spec; auto|]. intros i j Hi Hj E.
      destruct (pi_spec i Hi) as (_ & E1). destruct (pi_spec j Hj) as (_ & E2). congruence.
    Qed.
    Lemma pi_src : pi src = 0.
    Proof.
      pose proof (i_num _ _ _ _ _ _ _ _ I) as (HL & Hnd & Hlt & Hiff).
      pose proof (i_src _ _ _ _ _ _ _ _ I) as E. apply Hiff in E. unfold posn. rewrite (nth_error_nth _ _ None E). reflexivity.
    Qed.

    (** Slice borders handed to the slice map. *)
    Definition borders : list nat := removelast (bf_borders s).

    Lemma borders_spec : exists t, length (bf_borders s) = S (S t) /\ length borders = S t
      /\ (forall u, u <= t -> nth u borders 0 = bat R s u) /\ bat R s t = N.
    Proof.
      pose proof (i_now _ _ _ _ _ _ _ _ I) as [(H & _)|(_ & t & E & E1 & E2)].
      - pose proof (i_bmax _ _ _ _ _ _ _ _ I (length (bf_borders s) - 1)) as Hm.
        destruct (i_bne _ _ _ _ _ _ _ _ I) as (B' & EB). rewrite EB in Hm, H. cbn [length] in Hm, H.
        specialize (Hm ltac:(lia)). rewrite queue_len in Hm. lia.
      - exists t. split; auto. unfold borders.
        assert (EL : bf_borders s = removelast (bf_borders s) ++ [last (bf_borders s) 0]).
        { apply app_removelast_last. intros X. rewrite X in E. discriminate. }
        assert (Hlen : length (removelast (bf_borders s)) = S t).
        { rewrite EL in E. rewrite app_length in E. cbn in E. lia. }
        split; auto. split; auto. intros u Hu. unfold bat. rewrite EL at 2. rewrite app_nth1 by lia. reflexivity.
    Qed.

    Lemma rows_at : forall i, i < N -> Permutation (entries (bf_h2 s) (pi i)) (stored_row R inv_a b h (bf_map s) i (pi i)).
    Proof.
      intros i Hi. destruct (pi_spec i Hi) as (Hp & Eq). pose proof (i_rows _ _ _ _ _ _ _ _ I (pi i) Hp) as H.
      rewrite Eq in H. exact H.
    Qed.

    (** New entries come from old ones, or sit on the diagonal. *)
    Lemma new_entry : forall i e, i < N -> In e (entries (bf_h2 s) (pi i)) ->
      fst e = pi i \/ exists c, c < N /\ fst e = pi c /\ linked h i c.
    Proof.
      intros i e Hi He. rewrite rows_at in He by auto. unfold stored_row in He. apply in_app_iff in He. destruct He as [He|He].
      - apply in_map_iff in He. destruct He as (e' & <- & He'). right. exists (fst e'). cbn. split; [eapply Hwf; eauto|].
        split; auto. apply in_map. auto.
      - left. unfold extra in He. destruct (negb (keqb b k0) && negb (has_col R i (entries h i))); [|destruct He]. destruct He as [<- |[]]. reflexivity.
    Qed.

    Lemma h2_wf : wf_csr N (bf_h2 s).
    Proof.
      split; [apply (i_h2 _ _ _ _ _ _ _ _ I)|].
      assert (Hrow : forall i, N <= i -> entries (bf_h2 s) i = []).
      { intros i Hi. unfold entries. apply nth_overflow. rewrite (i_h2 _ _ _ _ _ _ _ _ I). auto. }
      split.
      - intros i e He. destruct (Nat.lt_ge_cases i N) as [Hi|Hi]; [|rewrite Hrow in He by auto; destruct He].
        destruct (pi_qat i Hi) as (Hq & Ep). rewrite <- Ep in He. destruct (new_entry _ e Hq He) as [-> | (c & Hc & -> & _)].
        + rewrite Ep; auto.
        + apply pi_spec; auto.
      - intros i. destruct (Nat.lt_ge_cases i N) as [Hi|Hi]; [|rewrite Hrow by auto; constructor].
        destruct (pi_qat i Hi) as (Hq & Ep). rewrite <- Ep. set (v := qat R s i) in *.
        rewrite rows_at by auto. unfold stored_row. rewrite map_app, map_map. cbn [fst].
        assert (E : map (fun e : nat * R => pi (fst e)) (entries h v) = map pi (map fst (entries h v))) by (rewrite map_map; auto).
        rewrite E.
        assert (Hnd : NoDup (map pi (map fst (entries h v)))).
        { assert (G : forall l, NoDup l -> (forall x, In x l -> x < N) -> NoDup (map pi l)).
          { clearbody v. clear Ep. induction l as [|x l IH]; intros Hn Hx; [constructor|]. inversion Hn; subst. cbn. constructor.
            - intros Hin. apply in_map_iff in Hin. destruct Hin as (y & Ey & Hy).
              apply pi_renumbering in Ey; [subst; auto| |]; apply Hx; [right|left]; auto.
            - apply IH; auto. intros; apply Hx; right; auto. }
          apply G; [apply Hwf|]. intros x Hx. apply in_map_iff in Hx. destruct Hx as (e & <- & He). eapply Hwf; eauto. }
        unfold extra. destruct (negb (keqb b k0) && negb (has_col R v (entries h v))) eqn:Ex; cbn [map]; [|rewrite app_nil_r; auto].
        rewrite <- Permutation_cons_append. constructor; auto. cbn [fst]. intros Hin. apply in_map_iff in Hin.
        destruct Hin as (c & Ec & Hc). assert (c < N).
        { apply in_map_iff in Hc. destruct Hc as (e & <- & He). eapply Hwf; eauto. }
        apply pi_renumbering in Ec; auto. subst c. apply andb_true_iff in Ex. destruct Ex as (_ & Ex).
        apply negb_true_iff in Ex. unfold has_col in Ex. apply in_map_iff in Hc. destruct Hc as (e & Ee & He).
        assert (X : existsb (fun e => fst e =? v) (entries h v) = true) by (apply existsb_exists; exists e; split; auto; apply Nat.eqb_eq; auto).
        congruence.
    Qed.

    Lemma h2_coef : forall i j, i < N -> j < N -> coef (bf_h2 s) (pi i) (pi j) = (k1 + k1) * scaled_dense inv_a b (coef h) i j.
    Proof.
      intros i j Hi Hj. rewrite (coef_perm _ _ _ _ (rows_at i Hi)). unfold stored_row. rewrite ksum_app, ksum_map. cbn [fst snd].
      unfold scaled_dense, coef. rewrite <- new_row_coef by (apply Hwf). f_equal.
      - apply ksum_ext. intros e He. assert (fst e < N) by (eapply Hwf; eauto).
        destruct (Nat.eqb_spec (pi (fst e)) (pi j)) as [E|E], (Nat.eqb_spec (fst e) j) as [E'|E']; auto.
        + apply pi_renumbering in E; auto. congruence.
        + congruence.
      - unfold extra. destruct (negb (keqb b k0) && negb (has_col R i (entries h i))); [|reflexivity].
        rewrite ksum_cons, ksum_nil. cbn [fst snd].
        destruct (Nat.eqb_spec (pi i) (pi j)) as [E|E], (Nat.eqb_spec i j) as [E'|E']; try ring; subst; try congruence.
        apply pi_renumbering in E; auto. congruence.
    Qed.

    Variables so do_ : nat.
    Local Notation sm := (SliceMap borders so do_).

    Lemma borders_increase : forall k, S k < length borders -> nth k borders 0 < nth (S k) borders 0.
    Proof.
      intros k Hk. destruct borders_spec as (t & L1 & L2 & E & _). rewrite !E by lia.
      apply (i_bstrict _ _ _ _ _ _ _ _ I). lia.
    Qed.
    Lemma borders_last : nth (length borders - 1) borders 0 = N.
    Proof. destruct borders_spec as (t & L1 & L2 & E & EN). rewrite L2. rewrite E by lia. rewrite Nat.sub_succ, Nat.sub_0_r. auto. Qed.
    Lemma borders_ne : borders <> [].
    Proof. destruct borders_spec as (t & _ & L2 & _). intros X. rewrite X in L2. discriminate. Qed.

    Lemma layer_iff : forall i k, k < length borders -> (i < nth k borders 0 <-> layer sm i <= k).
    Proof. intros i k Hk. apply first_above_spec; auto. apply borders_increase. Qed.
    Lemma layer_lt' : forall i, i < N -> layer sm i < length borders.
    Proof.
      intros i Hi. pose proof borders_ne. pose proof (layer_iff i (length borders - 1)) as H0. rewrite borders_last in H0.
      assert (length borders <> 0) by (intros X; apply length_zero_iff_nil in X; auto). apply H0 in Hi; lia.
    Qed.

    (** A row only reaches the next layer. *)
    Lemma couple_up : forall i c, i < N -> linked h i c -> layer sm (pi c) <= S (layer sm (pi i)).
    Proof.
      intros i c Hi Hl. destruct (pi_spec i Hi) as (Hp & Eq). assert (Hc : c < N).
      { apply in_map_iff in Hl. destruct Hl as (e & <- & He). eapply Hwf; eauto. }
      destruct borders_spec as (t & L1 & L2 & E & EN). pose proof (layer_lt' (pi i) Hp) as HL.
      destruct (Nat.eq_dec (S (layer sm (pi i))) (S t)) as [Et|Et].
      { pose proof (layer_lt' (pi c) (proj1 (pi_spec c Hc))). lia. }
      apply layer_iff; [lia|]. rewrite E by lia.
      apply in_map_iff in Hl. destruct Hl as (e & <- & He).
      apply (i_up _ _ _ _ _ _ _ _ I (pi i) e); auto; try lia; [rewrite Eq; auto|].
      rewrite <- E by lia. apply layer_iff; lia.
    Qed.

    Lemma h2_layered : layered R (bf_h2 s) N sm.
    Proof.
      split; [apply borders_ne|]. split; [apply borders_increase|]. split; [apply borders_last|].
      intros i e Hi He. destruct (pi_qat i Hi) as (Hq & Ep). rewrite <- Ep in He. rewrite <- Ep. set (v := qat R s i) in *.
      destruct (new_entry v e Hq He) as [-> | (c & Hc & -> & Hl)]; [lia|].
      split; [apply couple_up; auto|]. apply couple_up; auto.
    Qed.

    (** Slices are breadth-first layers. *)
    Lemma layer_0 : forall j, layer sm j = 0 -> j = 0.
    Proof.
      intros j Hj. destruct borders_spec as (t & L1 & L2 & E & EN). assert (H : j < nth 0 borders 0) by (apply layer_iff; lia).
      rewrite E in H by lia. unfold bat in H. destruct (i_bne _ _ _ _ _ _ _ _ I) as (B' & EB). rewrite EB in H. cbn in H. lia.
    Qed.
    Lemma layer_walk : forall L v, v < N -> layer sm (pi v) = L -> walk h L src v.
    Proof.
      induction L as [|L IH]; intros v Hv HL.
      - apply layer_0 in HL. destruct (pi_spec v Hv) as (_ & Eq). rewrite HL in Eq.
        pose proof (i_src _ _ _ _ _ _ _ _ I) as E. unfold qat in Eq. rewrite (nth_error_nth _ _ 0 E) in Eq. subst v. constructor.
      - destruct (pi_spec v Hv) as (Hp & Eq). destruct borders_spec as (t & L1 & L2 & E & EN).
        assert (Hp0 : 0 < pi v).
        { destruct (pi v) eqn:X; [|lia]. assert (0 < nth 0 borders 0).
          { rewrite E by lia. unfold bat. destruct (i_bne _ _ _ _ _ _ _ _ I) as (B' & EB). rewrite EB. cbn. lia. }
          pose proof (proj1 (layer_iff 0 0 ltac:(lia)) H). lia. }
        destruct (i_from _ _ _ _ _ _ _ _ I (pi v) Hp0 ltac:(rewrite queue_len; auto)) as (j & Hj & _ & Hl & F1 & F2).
        rewrite Eq in Hl. pose proof (layer_lt' (pi v) Hp) as HLt. destruct (pi_qat j Hj) as (Hqj & Epj).
        econstructor; [apply IH; [exact Hqj|]|exact Hl]. rewrite Epj.
        assert (U : layer sm j <= L).
        { apply layer_iff; [lia|]. rewrite E by lia. apply F2; [lia|]. rewrite <- E by lia. apply layer_iff; lia. }
        destruct L as [|L']; [lia|].
        assert (V : ~ (layer sm j <= L')); [|lia]. rewrite <- layer_iff by lia. rewrite E by lia.
        assert (W : bat R s L' <= j); [|lia]. apply F1; [lia|]. rewrite <- E by lia.
        assert (X : ~ (pi v < nth (S L') borders 0)); [|lia]. rewrite layer_iff by lia. lia.
    Qed.
    Lemma walk_layer : forall n v, walk h n src v -> v < N /\ layer sm (pi v) <= n.
    Proof.
      intros n v W. remember src as u eqn:Eu. revert Eu. induction W as [i|n i j w W IH Hl]; intros ->.
      - split; auto. rewrite pi_src. apply layer_iff; destruct borders_spec as (t & L1 & L2 & E & EN); [lia|].
        rewrite E by lia. unfold bat. destruct (i_bne _ _ _ _ _ _ _ _ I) as (B' & EB). rewrite EB. cbn. lia.
      - destruct IH as (Hj & Hlj); auto. assert (w < N).
        { apply in_map_iff in Hl. destruct Hl as (e & <- & He). eapply Hwf; eauto. }
        split; auto. pose proof (couple_up j w Hj Hl). lia.
    Qed.
    Lemma layer_distance : forall v, v < N -> distance h src v (layer sm (pi v)).
    Proof. intros v Hv. split; [apply layer_walk; auto|]. intros k W. apply walk_layer in W. lia. Qed.
  End Run.

  (** ** Results *)
  Lemma map_indices_ok : forall N q rm l, numbering N q rm -> length q = N -> (forall v, v < N -> In v q) -> (forall i, In i l -> i < N) ->
    map_indices rm l = Ok (map (posn rm) l).
  Proof.
    intros N q rm l Hn HL Hall Hl. unfold map_indices.
    assert (G : forall l acc, (forall i, In i l -> i < N) ->
      ofold (fun acc i => obind (map_index rm i) (fun j => Ok (acc ++ [j]))) l acc = Ok (acc ++ map (posn rm) l)).
    { clear l Hl. induction l as [|i l IH]; intros acc Hl; cbn [ofold map]; [rewrite app_nil_r; auto|].
      assert (Hi : i < N) by (apply Hl; left; auto).
      destruct (numbering_posn N q rm i Hn (Hall i Hi)) as (_ & E & _). unfold map_index, aget. rewrite E. cbn [obind].
      rewrite IH by (intros; apply Hl; right; auto). rewrite <- app_assoc. reflexivity. }
    rewrite G by auto. reflexivity.
  Qed.

  Lemma fold_max_ge : forall l a x, x = a \/ In x l -> x <= fold_left Nat.max l a.
  Proof.
    induction l as [|y l IH]; intros a x H; cbn.
    - destruct H as [-> | []]; lia.
    - destruct H as [-> | [-> | H]].
      + specialize (IH (Nat.max a y) (Nat.max a y) (or_introl eq_refl)). lia.
      + specialize (IH (Nat.max a x) (Nat.max a x) (or_introl eq_refl)). lia.
      + apply IH. auto.
  Qed.
  Lemma fold_max_in : forall l a, fold_left Nat.max l a = a \/ In (fold_left Nat.max l a) l.
  Proof.
    induction l as [|y l IH]; intros a; cbn; auto. destruct (IH (Nat.max a y)) as [E|E]; auto.
    rewrite E. destruct (Nat.max_spec a y) as [(_ & ->) | (_ & ->)]; auto.
  Qed.

  Lemma create_reordered_ok : forall N h idx, wf_csr N h -> sym_pattern h -> connected N h ->
    ix_src idx <> [] -> ix_dest idx <> [] ->
    (forall i, In i (ix_src idx) -> i < N) -> (forall i, In i (ix_dest idx) -> i < N) ->
    exists oh pi, create_reordered R inv_a b h idx = Ok oh
      /\ represents N h idx oh pi
      /\ oh_reorder oh = map (fun i => Some (pi i)) (seq 0 N)
      /\ pi (nth 0 (ix_src idx) 0) = 0
      /\ (forall i, i < N -> distance h (nth 0 (ix_src idx) 0) i (layer (oh_map oh) (pi i))).
  Proof.
    intros N h idx Hwf Hsym Hcon Hns Hnd Hs Hd. destruct (ix_src idx) as [|src srcs] eqn:Esrc; [congruence|].
    assert (Hsrc : src < N) by (apply Hs; left; auto).
    destruct (inv_start R inv_a b N h src Hwf Hsrc) as (s0 & E0 & I0).
    destruct (run_ok R inv_a b N h src Hwf Hsrc (fun v Hv => Hcon src v Hsrc Hv) s0 I0) as (s & Es & I).
    pose proof (proj1 Hwf) as HL. unfold create_reordered. rewrite Esrc. unfold aget at 1. cbn [nth_error obind].
    rewrite E0. cbn [obind]. rewrite HL, Es. cbn [obind].
    pose proof (i_num _ _ _ _ _ _ _ _ I) as Hnum. pose proof (queue_len N h src Hsrc s I) as Hql.
    pose proof (all_queued N h src Hsrc s I) as Hall.
    rewrite (map_indices_ok N _ _ (src :: srcs) Hnum Hql Hall Hs). cbn [obind].
    rewrite (map_indices_ok N _ _ (ix_dest idx) Hnum Hql Hall Hd). cbn [obind].
    destruct (ix_dest idx) as [|d ds] eqn:Edest; [congruence|].
    unfold make_slice_map, find_offset, max_index. cbn [ix_src ix_dest map obind]. eexists. exists (posn (bf_map s)).
    split; [reflexivity|]. fold (borders s).
    set (so := first_above (borders s) (fold_left Nat.max (map (posn (bf_map s)) srcs) (posn (bf_map s) src))).
    set (dof := first_above (borders s) (fold_left Nat.max (map (posn (bf_map s)) ds) (posn (bf_map s) d))).
    assert (Hoff : forall a l i, In i (a :: l) -> (forall i, In i (a :: l) -> i < N) ->
       first_above (borders s) (posn (bf_map s) i)
       <= first_above (borders s) (fold_left Nat.max (map (posn (bf_map s)) l) (posn (bf_map s) a))).
    { intros a l i Hi Hlt. set (M := fold_left Nat.max (map (posn (bf_map s)) l) (posn (bf_map s) a)).
      assert (HM : posn (bf_map s) i <= M).
      { apply fold_max_ge. destruct Hi as [-> | Hi]; auto. right. apply in_map. auto. }
      assert (HMN : M < N).
      { destruct (fold_max_in (map (posn (bf_map s)) l) (posn (bf_map s) a)) as [E|E]; fold M in E.
        - rewrite E. apply (pi_spec N h src Hsrc s I). apply Hlt. left; auto.
        - apply in_map_iff in E. destruct E as (x & <- & Hx). apply (pi_spec N h src Hsrc s I). apply Hlt. right; auto. }
      pose proof (layer_lt' N h src Hsrc s I 0 0 M HMN) as HLt. change (layer (SliceMap (borders s) 0 0) M) with (first_above (borders s) M) in HLt.
      pose proof (layer_iff N h src Hsrc s I 0 0) as Hiff.
      change (first_above (borders s) (posn (bf_map s) i)) with (layer (SliceMap (borders s) 0 0) (posn (bf_map s) i)).
      apply Hiff; auto. assert (M < nth (first_above (borders s) M) (borders s) 0) by (apply Hiff; auto). lia. }
    cbn [oh_matrix oh_idx oh_map oh_reorder].
    split; [constructor; cbn [oh_matrix oh_idx oh_map oh_reorder sm_src sm_dest]|split; [|split]].
    - apply (pi_renumbering N h src Hsrc s I).
    - rewrite Esrc, Edest. reflexivity.
    - apply (h2_wf N h src Hwf Hsrc s I).
    - intros i j Hi Hj. apply (h2_coef N h src Hwf Hsrc s I); auto.
    - apply (h2_layered N h src Hwf Hsrc Hsym s I).
    - rewrite Esrc. intros i Hi. apply Hoff; auto.
    - rewrite Edest. intros i Hi. apply Hoff; auto.
    - rewrite Esrc, Edest. intros E. injection E as -> ->. reflexivity.
    - apply nth_ext with (d := None) (d' := None); [rewrite map_length, seq_length; apply Hnum|].
      intros i Hi. assert (Hi' : i < N) by (rewrite <- (proj1 Hnum); auto).
      destruct (numbering_posn N _ _ i Hnum (Hall i Hi')) as (_ & E & _). rewrite (nth_error_nth _ _ None E).
      rewrite (nth_indep _ None (Some (posn (bf_map s) 0))) by (rewrite map_length, seq_length; auto).
      rewrite (map_nth (fun i => Some (posn (bf_map s) i))), seq_nth by auto. reflexivity.
    - cbn [nth]. apply (pi_src N h src s I).
    - intros i Hi. cbn [nth]. apply (layer_distance N h src Hwf Hsrc s I so dof i Hi).
  Qed.

  (** The reordering reads past the end of its queue when some index cannot be reached. *)
  Lemma create_reordered_ub : forall N h idx v, wf_csr N h ->
    ix_src idx <> [] -> (forall i, In i (ix_src idx) -> i < N) ->
    v < N -> (forall n, ~ walk h n (nth 0 (ix_src idx) 0) v) ->
    create_reordered R inv_a b h idx = UB.
  Proof.
    intros N h idx v Hwf Hns Hs Hv Hnr. destruct (ix_src idx) as [|src srcs] eqn:Esrc; [congruence|].
    assert (Hsrc : src < N) by (apply Hs; left; auto).
    destruct (inv_start R inv_a b N h src Hwf Hsrc) as (s0 & E0 & I0).
    unfold create_reordered. rewrite Esrc. unfold aget at 1. cbn [nth_error obind]. rewrite E0. cbn [obind].
    rewrite (proj1 Hwf). rewrite (run_ub R inv_a b N h src Hwf Hsrc v Hv Hnr s0 I0). reflexivity.
  Qed.

  (** ** Without reordering *)
  Lemma scaled_row_fst : forall r row, keqb b k0 = true \/ has_col R r row = true -> map fst (scaled_row R inv_a b r row) = map fst row.
  Proof.
    intros r row H. unfold scaled_row, shifted_row. rewrite map_map. cbn [fst].
    destruct (keqb b k0); [reflexivity|]. destruct H as [|H]; [discriminate|]. rewrite H, map_map. reflexivity.
  Qed.
  Lemma row_insert_fst : forall e (row : list (nat * R)), Permutation (map fst (row_insert R e row)) (fst e :: map fst row).
  Proof. intros. rewrite row_insert_perm. reflexivity. Qed.

  Lemma create_scaled_entries : forall h i, i < length h -> entries (create_scaled R inv_a b h) i = scaled_row R inv_a b i (entries h i).
  Proof.
    intros h i Hi. unfold entries, create_scaled.
    assert (L : length (combine (seq 0 (length h)) h) = length h) by (rewrite combine_length, seq_length; lia).
    rewrite (nth_indep _ [] (scaled_row R inv_a b (fst (0, @nil (nat * R))) (snd (0, @nil (nat * R))))) by (rewrite map_length, L; auto).
    rewrite (map_nth (fun p => scaled_row R inv_a b (fst p) (snd p))), combine_nth by (rewrite seq_length; auto).
    cbn [fst snd]. rewrite seq_nth by auto. reflexivity.
  Qed.
  Lemma create_scaled_length : forall h, length (create_scaled R inv_a b h) = length h.
  Proof. intros h. unfold create_scaled. rewrite map_length, combine_length, seq_length. lia. Qed.

  Lemma create_scaled_wf : forall N h, wf_csr N h -> wf_csr N (create_scaled R inv_a b h).
  Proof.
    intros N h (HL & Hc & Hnd). split; [rewrite create_scaled_length; auto|].
    assert (Hout : forall i, N <= i -> entries (create_scaled R inv_a b h) i = []).
    { intros i Hi. unfold entries. apply nth_overflow. rewrite create_scaled_length. lia. }
    assert (Hin : forall i, i < N -> Permutation (map fst (entries (create_scaled R inv_a b h) i))
              (map fst (entries h i)) \/ (has_col R i (entries h i) = false /\
               Permutation (map fst (entries (create_scaled R inv_a b h) i)) (i :: map fst (entries h i)))).
    { intros i Hi. rewrite create_scaled_entries by lia. destruct (keqb b k0) eqn:Eb.
      - left. rewrite scaled_row_fst by auto. auto.
      - destruct (has_col R i (entries h i)) eqn:Eh; [left; rewrite scaled_row_fst by auto; auto|]. right. split; auto.
        unfold scaled_row, shifted_row. rewrite Eb, Eh, map_map. cbn [fst]. rewrite row_insert_fst, map_map. reflexivity. }
    split.
    - intros i e He. destruct (Nat.lt_ge_cases i N) as [Hi|Hi]; [|rewrite Hout in He by auto; destruct He].
      assert (Hf : In (fst e) (map fst (entries (create_scaled R inv_a b h) i))) by (apply in_map; auto).
      destruct (Hin i Hi) as [P|(_ & P)]; rewrite P in Hf.
      + apply in_map_iff in Hf. destruct Hf as (e' & <- & He'). eauto.
      + destruct Hf as [<- |Hf]; auto. apply in_map_iff in Hf. destruct Hf as (e' & <- & He'). eauto.
    - intros i. destruct (Nat.lt_ge_cases i N) as [Hi|Hi]; [|rewrite Hout by auto; constructor].
      destruct (Hin i Hi) as [P|(Hh & P)]; rewrite P; auto. constructor; auto. intros Hx.
      apply in_map_iff in Hx. destruct Hx as (e & Ee & He).
      assert (X : has_col R i (entries h i) = true) by (apply existsb_exists; exists e; split; auto; apply Nat.eqb_eq; auto). congruence.
  Qed.

  Lemma create_scaled_coef : forall N h i j, wf_csr N h -> i < N ->
    coef (create_scaled R inv_a b h) i j = (k1 + k1) * scaled_dense inv_a b (coef h) i j.
  Proof.
    intros N h i j (HL & Hc & Hnd) Hi. unfold scaled_dense, coef at 2. rewrite <- new_row_coef by auto.
    unfold coef. rewrite create_scaled_entries by lia. set (l := entries h i). unfold scaled_row.
    rewrite ksum_map. cbn [fst snd]. unfold new_value. destruct (keqb b k0) eqn:Eb.
    - apply (keqb_eq R) in Eb. cbn [negb andb].
      assert (G : ksum (fun e : nat * R => if fst e =? j then snd e * ia else k0) l
                = ksum (fun e => if fst e =? j then if i =? fst e then snd e * ia - b * ia else snd e * ia else k0) l).
      { apply ksum_ext. intros e _. rewrite Eb. destruct (fst e =? j), (i =? fst e); ring. }
      rewrite G. ring.
    - unfold shifted_row. destruct (has_col R i l) eqn:Eh; cbn [negb andb].
      + rewrite ksum_map. cbn [fst snd]. rewrite kadd_0_r. apply ksum_ext. intros e _.
        rewrite (Nat.eqb_sym i). destruct (fst e =? j), (fst e =? i); ring.
      + rewrite (ksum_perm R _ _ _ (row_insert_perm R (i, k0 - b) _)). rewrite ksum_cons, ksum_map. cbn [fst snd].
        rewrite kadd_comm. f_equal.
        * apply ksum_ext. intros e _. rewrite (Nat.eqb_sym i). destruct (fst e =? j), (fst e =? i); ring.
        * destruct (i =? j); ring.
  Qed.

  Lemma create_scaled_ok : forall N h idx, wf_csr N h -> 0 < N -> (forall i, In i (ix_src idx) -> i < N) ->
    (forall i, In i (ix_dest idx) -> i < N) ->
    exists oh, optimize R inv_a b h false idx = Ok oh /\ represents N h idx oh (fun i => i) /\ oh_reorder oh = [].
  Proof.
    intros N h idx Hwf HN Hs Hd. pose proof (proj1 Hwf) as HL. eexists. split; [reflexivity|]. split; [|reflexivity].
    assert (Hlay : forall i, i < N -> layer (slice_map_simple (length h)) i = 0).
    { intros i Hi. unfold layer, slice_map_simple. cbn [sm_data first_above]. destruct (Nat.ltb_spec i (length h)); [auto|lia]. }
    constructor; cbn [oh_matrix oh_idx oh_map].
    - split; auto.
    - rewrite !map_id. destruct idx; reflexivity.
    - apply create_scaled_wf; auto.
    - intros i j Hi Hj. eapply create_scaled_coef; eauto.
    - split; [discriminate|]. split; [cbn; intros; lia|]. split; [exact HL|]. intros i e Hi He.
      rewrite !Hlay; auto. eapply (create_scaled_wf N h); eauto.
    - intros i Hi. rewrite Hlay by auto. lia.
    - intros i Hi. rewrite Hlay by auto. lia.
    - reflexivity.
  Qed.
End Optimized.
