(* The breadth-first reordering of Kpm.v ([create_reordered]): permutation, scaled values,
   slice borders. *)
From Verif Require Import Base Scalar Kpm KpmSpec KpmVec KpmLoops KpmMoments.
From Coq Require Import Ring Permutation.

(** Position of an index in the reordered matrix. *)
Definition posn (rm : list (option nat)) (v : nat) : nat := match nth v rm None with Some j => j | None => 0 end.

Lemma nth_error_snoc : forall {A} (l : list A) x j, nth_error (l ++ [x]) j = if j =? length l then Some x else nth_error l j.
Proof.
  induction l as [|a l IH]; intros x j; cbn [length app].
  - destruct j as [|[|]]; reflexivity.
  - destruct j; [reflexivity|]. cbn. apply IH.
Qed.

Lemma nth_error_upd : forall {A} (l : list A) i x j, nth_error (upd l i x) j
  = if (j =? i) && (i <? length l) then Some x else nth_error l j.
Proof.
  induction l as [|a l IH]; intros i x j; cbn [upd length].
  - rewrite andb_false_r. reflexivity.
  - destruct i, j; cbn; auto. rewrite IH. reflexivity.
Qed.

(** Queue and map describe the same partial numbering. *)
Definition numbering (N : nat) (q : list nat) (rm : list (option nat)) : Prop :=
  length rm = N /\ NoDup q /\ (forall v, In v q -> v < N)
  /\ forall v j, nth_error rm v = Some (Some j) <-> nth_error q j = Some v.

Lemma numbering_in : forall N q rm v, numbering N q rm -> v < N ->
  (In v q /\ exists j, nth_error rm v = Some (Some j) /\ nth_error q j = Some v /\ posn rm v = j)
  \/ (~ In v q /\ nth_error rm v = Some None).
Proof.
  intros N q rm v (HL & _ & _ & H) Hv. destruct (nth_error rm v) as [[j|]|] eqn:E.
  - left. pose proof (proj1 (H v j) E) as Hq. split; [eapply nth_error_In; eauto|]. exists j. repeat split; auto.
    unfold posn. rewrite (nth_error_nth _ _ None E). reflexivity.
  - right. split; auto. intros Hin. apply In_nth_error in Hin. destruct Hin as (j & Hj). apply H in Hj. congruence.
  - apply nth_error_None in E. lia.
Qed.

Lemma numbering_posn : forall N q rm v, numbering N q rm -> In v q -> nth_error q (posn rm v) = Some v /\ nth_error rm v = Some (Some (posn rm v)) /\ posn rm v < length q.
Proof.
  intros N q rm v H Hin. assert (Hv : v < N) by (apply H; auto).
  destruct (numbering_in N q rm v H Hv) as [(_ & j & E1 & E2 & E3)|(Hn & _)]; [|tauto].
  subst j. repeat split; auto. apply nth_error_Some. congruence.
Qed.

Section Bfs.
  Variable R : scalar.
  Variable half inv_a b : R.
  Add Ring Rring : (k_ring R).
  Local Open Scope k_scope.
  Local Notation csr := (list (list (nat * R))).
  Local Notation ia := (inverted_a R inv_a).

  Lemma row_insert_perm : forall e (row : list (nat * R)), Permutation (row_insert R e row) (e :: row).
  Proof.
    intros e row. induction row as [|a row IH]; cbn [row_insert]; auto.
    destruct (fst e <=? fst a); auto. eapply perm_trans; [apply perm_skip, IH|apply perm_swap].
  Qed.

  (** Scaled value of an entry in row [row]. *)
  Definition new_value (row : nat) (e : nat * R) : R := if row =? fst e then snd e * ia - b * ia else snd e * ia.

  (** Result of the inner loop over one row. *)
  Definition row_done (N : nat) (row : nat) (es : list (nat * R)) (q : list nat) rm (out : list (nat * R)) (dg : bool)
      (q' : list nat) (rm' : list (option nat)) (out' : list (nat * R)) (dg' : bool) : Prop :=
    numbering N q' rm'
    /\ (exists ext, q' = q ++ ext /\ forall v, In v ext -> In v (map fst es))
    /\ (forall e, In e es -> In (fst e) q')
    /\ (forall v j, nth_error rm v = Some (Some j) -> nth_error rm' v = Some (Some j))
    /\ Permutation out' (map (fun e => (posn rm' (fst e), new_value row e)) es ++ out)
    /\ dg' = (dg || has_col R row es).

  Lemma visit_entries : forall N row es q rm out dg, numbering N q rm -> (forall e, In e es -> fst e < N) ->
    exists q' rm' out' dg', ofold (visit_entry R inv_a b row) es (q, rm, out, dg) = Ok (q', rm', out', dg')
      /\ row_done N row es q rm out dg q' rm' out' dg'.
  Proof.
    intros N row. induction es as [|e es IH]; intros q rm out dg Hn Hc.
    - exists q, rm, out, dg. split; [reflexivity|]. split; auto. split; [exists []; rewrite app_nil_r; split; auto; intros ? []|].
      split; [intros ? []|]. split; auto. split; auto. cbn. rewrite orb_false_r. reflexivity.
    - cbn [ofold]. assert (He : fst e < N) by (apply Hc; left; auto).
      assert (S1 : exists q1 rm1, numbering N q1 rm1 /\ (exists ext, q1 = q ++ ext /\ forall v, In v ext -> v = fst e)
                 /\ In (fst e) q1 /\ (forall v j, nth_error rm v = Some (Some j) -> nth_error rm1 v = Some (Some j))
                 /\ visit_entry R inv_a b row (q, rm, out, dg) e
                    = Ok (q1, rm1, row_insert R (posn rm1 (fst e), new_value row e) out, dg || (row =? fst e))).
      { destruct (numbering_in N q rm (fst e) Hn He) as [(Hin & j & E1 & E2 & E3)|(Hnin & E)].
        - exists q, rm. split; auto. split; [exists []; rewrite app_nil_r; split; auto; intros ? []|].
          split; auto. split; auto. unfold visit_entry, aget. rewrite E1. cbn [obind]. subst j. unfold new_value.
          destruct (Nat.eqb_spec row (fst e)); cbn; rewrite ?orb_true_r, ?orb_false_r; reflexivity.
        - set (rm1 := upd rm (fst e) (Some (length q))). exists (q ++ [fst e]), rm1.
          destruct Hn as (HL & Hnd & Hlt & Hiff).
          assert (Hrm1 : forall v, nth_error rm1 v = if v =? fst e then Some (Some (length q)) else nth_error rm v).
          { intros v. unfold rm1. rewrite nth_error_upd. destruct (Nat.ltb_spec (fst e) (length rm)); [|lia].
            rewrite andb_true_r. reflexivity. }
          assert (Hn1 : numbering N (q ++ [fst e]) rm1).
          { split; [unfold rm1; rewrite upd_length; auto|]. split.
            { apply NoDup_app_comm || idtac. rewrite <- (Permutation_cons_append q (fst e)). constructor; auto. }
            split; [intros v Hv; apply in_app_iff in Hv; destruct Hv as [Hv|[<- |[]]]; auto|].
            intros v j. rewrite Hrm1, nth_error_snoc. destruct (Nat.eqb_spec v (fst e)) as [-> | Hne].
            - destruct (Nat.eqb_spec j (length q)) as [-> | Hj]; [split; auto|]. split; intros Hx.
              + injection Hx as <-. lia.
              + exfalso. apply Hnin. eapply nth_error_In; eauto.
            - rewrite Hiff. destruct (Nat.eqb_spec j (length q)) as [-> | Hj]; [|tauto]. split; intros Hx.
              + exfalso. assert (length q < length q) by (apply nth_error_Some; congruence). lia.
              + injection Hx as Hx. congruence. }
          split; auto. split; [exists [fst e]; split; auto; intros v [<- |[]]; auto|].
          split; [apply in_app_iff; right; left; auto|].
          split. { intros v j Hv. rewrite Hrm1. destruct (Nat.eqb_spec v (fst e)) as [-> | Hne]; auto. congruence. }
          assert (Hp : posn rm1 (fst e) = length q).
          { unfold posn. pose proof (Hrm1 (fst e)) as Hx. rewrite Nat.eqb_refl in Hx. rewrite (nth_error_nth _ _ None Hx). reflexivity. }
          unfold visit_entry, aget. rewrite E. cbn [obind]. fold rm1. rewrite Hp. unfold new_value.
          destruct (Nat.eqb_spec row (fst e)); cbn; rewrite ?orb_true_r, ?orb_false_r; reflexivity. }
      destruct S1 as (q1 & rm1 & Hn1 & (ext1 & Eq1 & Hext1) & Hin1 & Hk1 & Ev). rewrite Ev. cbn [obind].
      destruct (IH q1 rm1 (row_insert R (posn rm1 (fst e), new_value row e) out) (dg || (row =? fst e)) Hn1
                  ltac:(intros; apply Hc; right; auto)) as (q' & rm' & out' & dg' & Ef & Hd).
      exists q', rm', out', dg'. split; auto. destruct Hd as (D1 & (ext2 & Eq2 & Hext2) & D3 & D4 & D5 & D6).
      split; auto. split.
      { exists (ext1 ++ ext2). split; [rewrite Eq2, Eq1, app_assoc; auto|]. intros v Hv. apply in_app_iff in Hv.
        destruct Hv as [Hv|Hv]; [left; symmetry; apply Hext1; auto|right; apply Hext2; auto]. }
      split. { intros e' [<- |He']; [rewrite Eq2; apply in_app_iff; auto|auto]. }
      split; [auto|]. split.
      { rewrite D5. cbn [map app].
        assert (Ep : posn rm' (fst e) = posn rm1 (fst e)).
        { destruct (numbering_posn N q1 rm1 (fst e) Hn1 Hin1) as (_ & E & _). apply D4 in E. unfold posn at 1.
          rewrite (nth_error_nth _ _ None E). reflexivity. }
        rewrite Ep, row_insert_perm. symmetry. apply Permutation_middle. }
      rewrite D6. cbn [has_col existsb]. unfold has_col. rewrite (Nat.eqb_sym row (fst e)), orb_assoc. reflexivity.
  Qed.

  Section Run.
    Variable N : nat.
    Variable h : csr.
    Variable src : nat.
    Hypothesis Hwf : wf_csr N h.
    Hypothesis Hsrc : src < N.

    Definition qat (s : bfs R) (j : nat) : nat := nth j (bf_queue s) 0.
    Definition bat (s : bfs R) (t : nat) : nat := nth t (bf_borders s) 0.

    (** The row stored for queue position [j]. *)
    Definition extra (v j : nat) : list (nat * R) :=
      if negb (keqb b k0) && negb (has_col R v (entries h v)) then [(j, kopp b * ia)] else [].
    Definition stored_row (rm : list (option nat)) (v j : nat) : list (nat * R) :=
      map (fun e => (posn rm (fst e), new_value v e)) (entries h v) ++ extra v j.

    (** Invariant after [k] rows. *)
    Record inv (k : nat) (s : bfs R) : Prop := Inv {
      i_num : numbering N (bf_queue s) (bf_map s);
      i_src : nth_error (bf_queue s) 0 = Some src;
      i_len : k <= length (bf_queue s);
      i_h2 : length (bf_h2 s) = k;
      i_closed : forall j e, j < k -> In e (entries h (qat s j)) -> In (fst e) (bf_queue s);
      i_rows : forall j, j < k -> Permutation (nth j (bf_h2 s) []) (stored_row (bf_map s) (qat s j) j);
      i_bne : exists B', bf_borders s = 1 :: B';
      i_bmax : forall t, t < length (bf_borders s) -> bat s t <= length (bf_queue s);
      i_bold : forall t, S t < length (bf_borders s) -> bat s t <= k;
      i_bstrict : forall t, S (S t) < length (bf_borders s) -> bat s t < bat s (S t);
      i_now : (k < bat s (length (bf_borders s) - 1)
               /\ forall t, S t < length (bf_borders s) -> bat s t < bat s (S t))
              \/ (k = length (bf_queue s) /\ exists t, length (bf_borders s) = S (S t) /\ bat s t = k /\ bat s (S t) = k);
      i_up : forall j e t, j < k -> In e (entries h (qat s j)) -> S t < length (bf_borders s) -> j < bat s t ->
               posn (bf_map s) (fst e) < bat s (S t);
      i_from : forall p, 0 < p -> p < length (bf_queue s) -> exists j, j < k /\ j < p /\ linked h (qat s j) (qat s p)
               /\ (forall t, S t < length (bf_borders s) -> bat s (S t) <= p -> bat s t <= j)
               /\ (forall t, S t < length (bf_borders s) -> p < bat s (S t) -> j < bat s t)
    }.

    Lemma inv_start : exists s, bfs_start R (length h) src = Ok s /\ inv 0 s.
    Proof.
      destruct Hwf as (HL & _). unfold bfs_start. rewrite HL. destruct (Nat.ltb_spec src N); [|lia].
      eexists. split; [reflexivity|]. constructor; cbn.
      - split; [rewrite upd_length, repeat_length; auto|]. split; [constructor; [intros []|constructor]|].
        split; [intros v [<- |[]]; auto|]. intros v j. rewrite nth_error_upd, repeat_length.
        destruct (Nat.ltb_spec src N); [|lia]. rewrite andb_true_r. destruct (Nat.eqb_spec v src) as [-> | Hne].
        + split; [intros E; injection E as <-; reflexivity|]. destruct j as [|[|]]; cbn; try discriminate. auto.
        + split; intros E.
          * apply nth_error_In in E. apply repeat_spec in E. discriminate.
          * destruct j as [|[|]]; cbn in E; try discriminate. congruence.
      - reflexivity.
      - lia.
      - reflexivity.
      - intros; lia.
      - intros; lia.
      - exists []. reflexivity.
      - intros [|[|t]] Ht; unfold bat; cbn in *; lia.
      - intros; lia.
      - intros; lia.
      - left. unfold bat. cbn. split; [lia|]. intros; lia.
      - intros; lia.
      - intros p H1 H2. lia.
    Qed.

    Lemma last_border : forall s, (exists B', bf_borders s = 1 :: B') ->
      last (map Some (bf_borders s)) None = Some (bat s (length (bf_borders s) - 1)).
    Proof.
      intros s (B' & E). unfold bat. rewrite E.
      assert (G : forall B' x, last (map Some (x :: B')) None = Some (nth (length B') (x :: B') 0%nat)).
      { clear. induction B' as [|y B' IH]; intros x; [reflexivity|]. exact (IH y). }
      rewrite G. cbn [length]. rewrite Nat.sub_succ, Nat.sub_0_r. reflexivity.
    Qed.

    Lemma step : forall k s, inv k s -> k < length (bf_queue s) ->
      exists s', visit_row R inv_a b h s k = Ok s' /\ inv (S k) s'.
    Proof.
      intros k s I Hk. destruct I as [Inum Isrc Ilen Ih2 Iclosed Irows Ibne Ibmax Ibold Ibstrict Inow Iup Ifrom].
      set (v := qat s k). assert (Ev : nth_error (bf_queue s) k = Some v) by (apply nth_error_nth'; auto).
      assert (Hv : v < N) by (apply Inum; eapply nth_error_In; eauto).
      destruct Hwf as (HL & Hcol & Hnd). unfold visit_row. unfold aget at 1. rewrite Ev. cbn [obind].
      rewrite aget_entries by lia. cbn [obind].
      destruct (visit_entries N v (entries h v) (bf_queue s) (bf_map s) [] false Inum (fun e => Hcol v e))
        as (q' & rm' & out' & dg' & Ef & (D1 & (ext & Eq & Hext) & D3 & D4 & D5 & D6)).
      rewrite Ef. cbn [obind]. rewrite last_border by auto.
      set (bk := bat s (length (bf_borders s) - 1)).
      assert (Hbk : k < bk /\ forall t, S t < length (bf_borders s) -> bat s t < bat s (S t)).
      { destruct Inow as [H|(H & _)]; [exact H|lia]. }
      destruct Hbk as (Hbk & Hstr).
      assert (Hlen0 : 0 < length (bf_borders s)) by (destruct Ibne as (B' & ->); cbn; lia).
      assert (Hbkq : bk <= length (bf_queue s)) by (apply Ibmax; lia).
      eexists. split; [reflexivity|].
      set (grow := S k =? bk).
      set (Bs := if grow then bf_borders s ++ [length q'] else bf_borders s).
      assert (HBlen : length Bs = if grow then S (length (bf_borders s)) else length (bf_borders s)).
      { unfold Bs. destruct grow; [rewrite app_length; cbn; lia|auto]. }
      assert (HBat : forall t, nth t Bs 0%nat = if grow && (t =? length (bf_borders s)) then length q' else bat s t).
      { intros t. unfold Bs, bat. destruct grow; cbn [andb]; auto. destruct (Nat.eqb_spec t (length (bf_borders s))) as [-> | Hne].
        - rewrite app_nth2, Nat.sub_diag by lia. reflexivity.
        - destruct (Nat.lt_ge_cases t (length (bf_borders s))); [apply app_nth1; auto|].
          rewrite app_nth2 by lia. rewrite (nth_overflow (bf_borders s)) by lia. destruct (t - length (bf_borders s))%nat as [|[|]] eqn:E; cbn; auto. lia. }
      assert (Hql : length (bf_queue s) <= length q') by (rewrite Eq, app_length; lia).
      assert (Hqat : forall j, j < length (bf_queue s) -> nth j q' 0%nat = qat s j) by (intros; rewrite Eq, app_nth1; auto).
      assert (Hpos : forall w, In w (bf_queue s) -> posn rm' w = posn (bf_map s) w).
      { intros w Hw. destruct (numbering_posn N _ _ w Inum Hw) as (_ & E & _). apply D4 in E. unfold posn at 1.
        rewrite (nth_error_nth _ _ None E). reflexivity. }
      assert (Hgrow : grow = true -> S k = bk) by (unfold grow; intros; apply Nat.eqb_eq; auto).
      assert (Hngrow : grow = false -> S k < bk) by (unfold grow; intros Hx; apply Nat.eqb_neq in Hx; lia).
      assert (Hbat_bk : forall t, t < length (bf_borders s) -> bat s t <= bk).
      { intros t Ht. destruct (Nat.eq_dec t (length (bf_borders s) - 1)) as [-> | Hne]; [unfold bk; lia|].
        pose proof (Ibold t ltac:(lia)). lia. }
      constructor; cbn [bf_queue bf_map bf_borders bf_h2]; unfold qat, bat; cbn [bf_queue bf_map bf_borders bf_h2]; fold Bs.
      - exact D1.
      - rewrite Eq. destruct (bf_queue s); [discriminate|exact Isrc].
      - lia.
      - rewrite app_length. cbn. lia.
      - intros j e Hj He. rewrite Hqat in He by lia. destruct (Nat.eq_dec j k) as [-> | Hne]; [apply D3; auto|].
        rewrite Eq. apply in_app_iff. left. eapply Iclosed; eauto. lia.
      - intros j Hj. rewrite Hqat by lia. destruct (Nat.eq_dec j k) as [-> | Hne].
        + rewrite app_nth2, Ih2, Nat.sub_diag by lia. cbn [nth]. fold v. unfold stored_row, extra. rewrite D6. cbn [orb].
          rewrite app_nil_r in D5.
          destruct (negb (keqb b k0) && negb (has_col R v (entries h v))).
          * rewrite row_insert_perm, D5. apply Permutation_cons_append.
          * rewrite app_nil_r. exact D5.
        + rewrite app_nth1 by lia. rewrite (Irows j) by lia. unfold stored_row.
          assert (E : map (fun e => (posn rm' (fst e), new_value (qat s j) e)) (entries h (qat s j))
                    = map (fun e => (posn (bf_map s) (fst e), new_value (qat s j) e)) (entries h (qat s j))).
          { apply map_ext_in. intros e He. rewrite Hpos; auto. eapply Iclosed; eauto. lia. }
          rewrite E. reflexivity.
      - unfold Bs. destruct Ibne as (B' & ->). destruct grow; [exists (B' ++ [length q'])|exists B']; reflexivity.
      - intros t Ht. rewrite HBat, HBlen in *. destruct (grow && (t =? length (bf_borders s))) eqn:E; [lia|].
        assert (t < length (bf_borders s)).
        { destruct grow; cbn in E; auto. apply Nat.eqb_neq in E. lia. }
        pose proof (Ibmax t ltac:(lia)). lia.
      - intros t Ht. rewrite HBat, HBlen in *. destruct (grow && (t =? length (bf_borders s))) eqn:E.
        { apply andb_true_iff in E. destruct E as (E1 & E2). apply Nat.eqb_eq in E2. rewrite E1 in Ht. lia. }
        destruct grow eqn:Eg.
        + pose proof (Hbat_bk t ltac:(lia)). rewrite <- (Hgrow eq_refl) in H. lia.
        + pose proof (Ibold t Ht). lia.
      - intros t Ht. rewrite !HBat, HBlen in *.
        destruct (grow && (t =? length (bf_borders s))) eqn:E.
        { apply andb_true_iff in E. destruct E as (E1 & E2). apply Nat.eqb_eq in E2. rewrite E1 in Ht. lia. }
        destruct (grow && (S t =? length (bf_borders s))) eqn:E'.
        { apply andb_true_iff in E'. destruct E' as (E1 & E2). apply Nat.eqb_eq in E2. rewrite E1 in Ht. lia. }
        apply Hstr. destruct grow; lia.
      - destruct grow eqn:Eg.
        + specialize (Hgrow eq_refl).
          assert (E0 : nth (length Bs - 1) Bs 0%nat = length q').
          { rewrite HBat. cbn [andb]. rewrite HBlen. replace (S (length (bf_borders s)) - 1)%nat with (length (bf_borders s)) by lia.
            rewrite Nat.eqb_refl. reflexivity. }
          destruct (Nat.lt_ge_cases (S k) (length q')) as [Hlt|Hge].
          * left. split; [rewrite E0; auto|]. intros t Ht. rewrite !HBat, HBlen in *. cbn [andb].
            destruct (Nat.eqb_spec t (length (bf_borders s))); [lia|].
            destruct (Nat.eqb_spec (S t) (length (bf_borders s))) as [Es|Es].
            -- assert (bat s t = bk) by (unfold bk; f_equal; lia). lia.
            -- apply Hstr. lia.
          * right. split; [lia|]. exists (length (bf_borders s) - 1)%nat. rewrite HBlen. split; [lia|]. split.
            -- rewrite HBat. cbn [andb]. destruct (Nat.eqb_spec (length (bf_borders s) - 1) (length (bf_borders s))); [lia|].
               fold bk. lia.
            -- rewrite HBat. cbn [andb]. replace (S (length (bf_borders s) - 1)) with (length (bf_borders s)) by lia.
               rewrite Nat.eqb_refl. lia.
        + left. specialize (Hngrow eq_refl). rewrite HBlen, HBat. cbn [andb]. fold bk. split; [auto|].
          intros t Ht. rewrite !HBat. cbn [andb]. apply Hstr; auto.
      - intros j e t Hj He Ht Hjt. rewrite !HBat, HBlen in *. rewrite Hqat in He by lia.
        assert (Hin : In (fst e) q').
        { destruct (Nat.eq_dec j k) as [-> | Hne]; [apply D3; auto|]. rewrite Eq. apply in_app_iff. left. eapply Iclosed; eauto. lia. }
        destruct (grow && (t =? length (bf_borders s))) eqn:E.
        { apply andb_true_iff in E. destruct E as (E1 & E2). apply Nat.eqb_eq in E2. rewrite E1 in Ht. lia. }
        destruct (grow && (S t =? length (bf_borders s))) eqn:E'.
        { apply (numbering_posn N q' rm'); auto. }
        assert (Ht' : S t < length (bf_borders s)).
        { destruct grow; cbn [andb] in *; [apply Nat.eqb_neq in E'; lia|lia]. }
        destruct (Nat.eq_dec j k) as [-> | Hne].
        { pose proof (Ibold t Ht'). lia. }
        rewrite Hpos by (eapply Iclosed; eauto; lia). eapply Iup; eauto. lia.
      - intros p Hp0 Hp. destruct (Nat.lt_ge_cases p (length (bf_queue s))) as [Hpo|Hpn].
        + destruct (Ifrom p Hp0 Hpo) as (j & Hj & Hjp & Hl & F1 & F2). exists j. split; [lia|]. split; [lia|].
          rewrite !Hqat by lia. split; auto. split; intros t Ht Hx; rewrite !HBat, HBlen in *.
          * destruct (grow && (t =? length (bf_borders s))) eqn:E.
            { apply andb_true_iff in E. destruct E as (E1 & E2). apply Nat.eqb_eq in E2. rewrite E1 in Ht. lia. }
            destruct (grow && (S t =? length (bf_borders s))) eqn:E'; [lia|].
            apply F1; auto. destruct grow; cbn [andb] in *; [apply Nat.eqb_neq in E'; lia|lia].
          * destruct (grow && (t =? length (bf_borders s))) eqn:E.
            { apply andb_true_iff in E. destruct E as (E1 & E2). apply Nat.eqb_eq in E2. rewrite E1 in Ht. lia. }
            destruct (grow && (S t =? length (bf_borders s))) eqn:E'.
            { apply andb_true_iff in E'. destruct E' as (E1 & E2). apply Nat.eqb_eq in E2.
              assert (bat s t = bk) by (unfold bk; f_equal; lia). specialize (Hgrow E1). lia. }
            apply F2; auto. destruct grow; cbn [andb] in *; [apply Nat.eqb_neq in E'; lia|lia].
        + exists k. split; [lia|]. split; [lia|]. split.
          { rewrite Hqat by lia. apply Hext. rewrite Eq. rewrite app_nth2 by lia. apply nth_In.
            rewrite Eq, app_length in Hp. lia. }
          split; intros t Ht Hx; rewrite !HBat, HBlen in *.
          * destruct (grow && (t =? length (bf_borders s))) eqn:E.
            { apply andb_true_iff in E. destruct E as (E1 & E2). apply Nat.eqb_eq in E2. rewrite E1 in Ht. lia. }
            destruct (grow && (S t =? length (bf_borders s))) eqn:E'; [lia|].
            apply Ibold. destruct grow; cbn [andb] in *; [apply Nat.eqb_neq in E'; lia|lia].
          * destruct (grow && (t =? length (bf_borders s))) eqn:E.
            { apply andb_true_iff in E. destruct E as (E1 & E2). apply Nat.eqb_eq in E2. rewrite E1 in Ht. lia. }
            destruct (grow && (S t =? length (bf_borders s))) eqn:E'.
            { apply andb_true_iff in E'. destruct E' as (E1 & E2). apply Nat.eqb_eq in E2.
              assert (bat s t = bk) by (unfold bk; f_equal; lia). specialize (Hgrow E1). lia. }
            assert (S t < length (bf_borders s)) by (destruct grow; cbn [andb] in *; [apply Nat.eqb_neq in E'; lia|lia]).
            pose proof (Ibmax (S t) ltac:(lia)). lia.
    Qed.

    (** Every queued index is reachable. *)
    Lemma queued_reachable : forall k s, inv k s -> forall p, p < length (bf_queue s) -> exists n, walk h n src (qat s p).
    Proof.
      intros k s I. induction p as [p IH] using lt_wf_ind. intros Hp. destruct (Nat.eq_dec p 0) as [-> | Hne].
      - exists 0%nat. unfold qat. rewrite (nth_error_nth _ _ 0%nat (i_src k s I)). constructor.
      - destruct (i_from k s I p ltac:(lia) Hp) as (j & _ & Hj & Hl & _).
        destruct (IH j Hj ltac:(lia)) as (n & Hw). exists (S n). econstructor; eauto.
    Qed.

    (** A queue that has been processed completely contains everything reachable. *)
    Lemma processed_closed : forall k s, inv k s -> k = length (bf_queue s) -> forall n v, walk h n src v -> In v (bf_queue s).
    Proof.
      intros k s I E n v W. remember src as u eqn:Eu. revert Eu. induction W as [i|n i j w W IH Hl]; intros ->.
      - eapply nth_error_In. apply (i_src k s I).
      - specialize (IH Hsrc eq_refl). apply (In_nth _ _ 0%nat) in IH. destruct IH as (p & Hp & Ep).
        unfold linked in Hl. apply in_map_iff in Hl. destruct Hl as (e & <- & He).
        apply (i_closed k s I p); [lia|]. unfold qat. rewrite Ep. exact He.
    Qed.

    Lemma full_queue : forall k s, inv k s -> (forall v, v < N -> exists n, walk h n src v) -> k = length (bf_queue s) -> N <= k.
    Proof.
      intros k s I Hreach E. rewrite E. rewrite <- (seq_length N 0). apply NoDup_incl_length; [apply seq_NoDup|].
      intros v Hv. apply in_seq in Hv. destruct (Hreach v ltac:(lia)) as (n & W). eapply processed_closed; eauto.
    Qed.

    Lemma queue_max : forall k s, inv k s -> length (bf_queue s) <= N.
    Proof.
      intros k s I. rewrite <- (seq_length N 0). apply NoDup_incl_length; [apply (i_num k s I)|].
      intros v Hv. apply in_seq. pose proof (proj1 (proj2 (proj2 (i_num k s I))) v Hv). lia.
    Qed.

    (** With a connected matrix the loop runs to the end. *)
    Lemma run_ok : (forall v, v < N -> exists n, walk h n src v) -> forall s0, inv 0 s0 ->
      exists s, ofold (visit_row R inv_a b h) (seq 0 N) s0 = Ok s /\ inv N s.
    Proof.
      intros Hreach s0 I0.
      assert (G : forall k, k <= N -> exists s, ofold (visit_row R inv_a b h) (seq 0 k) s0 = Ok s /\ inv k s).
      { induction k as [|k IH]; intros Hk; [exists s0; split; [reflexivity|auto]|].
        destruct (IH ltac:(lia)) as (s & E & I). rewrite seq_S, ofold_app, E. cbn [obind ofold plus].
        destruct (Nat.lt_ge_cases k (length (bf_queue s))) as [Hlt|Hge].
        - destruct (step k s I Hlt) as (s' & E' & I'). exists s'. rewrite E'. split; auto.
        - pose proof (full_queue k s I Hreach ltac:(pose proof (i_len k s I); lia)). lia. }
      apply G. auto.
    Qed.

    (** Otherwise it reads past the end of the queue. *)
    Lemma run_ub : forall v, v < N -> (forall n, ~ walk h n src v) -> forall s0, inv 0 s0 ->
      ofold (visit_row R inv_a b h) (seq 0 N) s0 = UB.
    Proof.
      intros v Hv Hnr s0 I0.
      assert (G : forall k, k <= N -> (exists s, ofold (visit_row R inv_a b h) (seq 0 k) s0 = Ok s /\ inv k s)
                              \/ ofold (visit_row R inv_a b h) (seq 0 k) s0 = UB).
      { induction k as [|k IH]; intros Hk; [left; exists s0; split; [reflexivity|auto]|].
        rewrite seq_S, ofold_app. destruct (IH ltac:(lia)) as [(s & E & I)|E]; rewrite E; cbn [obind ofold plus]; [|right; auto].
        destruct (Nat.lt_ge_cases k (length (bf_queue s))) as [Hlt|Hge].
        - left. destruct (step k s I Hlt) as (s' & E' & I'). exists s'. rewrite E'. split; auto.
        - right. unfold visit_row, aget. rewrite (proj2 (nth_error_None _ _)) by lia. reflexivity. }
      destruct (G N (le_n N)) as [(s & E & I)|E]; auto. exfalso.
      assert (Hin : In v (bf_queue s)).
      { apply (NoDup_length_incl (proj1 (proj2 (i_num N s I))) (l' := seq 0 N)).
        - rewrite seq_length. apply (i_len N s I).
        - intros w Hw. apply in_seq. pose proof (proj1 (proj2 (proj2 (i_num N s I))) w Hw). lia.
        - apply in_seq. lia. }
      apply (In_nth _ _ 0%nat) in Hin. destruct Hin as (p & Hp & Ep).
      destruct (queued_reachable N s I p Hp) as (n & W). unfold qat in W. rewrite Ep in W. eapply Hnr; eauto.
    Qed.
  End Run.
End Bfs.
