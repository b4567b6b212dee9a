(* Every interleaving of the parallel loop. *)
From Verif Require Import Base Threads ThreadsSpec ThreadProofs ThreadLocal ParallelFor.
From Coq Require Import Permutation.

Section Proofs.
  Variable W : Type.
  Variable produce : nat -> W.
  Variable compute : W -> W.
  Variables size n qs : nat.
  Notation act := (floop produce compute size n).
  Notation start := (@fstart W n qs).
  Notation jobs k := (map (fun i => (i, produce i)) (seq 0 k)).
  Definition cj (j : job W) : job W := (fst j, compute (snd j)).

  Definition isPS (l : floc W) := match l with PStart => true | _ => false end.
  Definition isPL (l : floc W) := match l with PLoop _ => true | _ => false end.
  Definition isPD (l : floc W) := match l with PDone => true | _ => false end.
  Definition isAct (l : floc W) := match l with WLoop _ | WGot _ _ | WSend _ _ | WEnd _ => true | _ => false end.
  Definition isWD (l : floc W) := match l with WDone _ => true | _ => false end.
  Definition isPast (l : floc W) := match l with WEnd _ | WDone _ => true | _ => false end.
  Definition isHeld (l : floc W) := match l with WGot _ _ | WSend _ _ => true | _ => false end.
  Definition isRL (l : floc W) := match l with RLoop _ => true | _ => false end.
  Definition isRD (l : floc W) := match l with RDone _ => true | _ => false end.
  Definition pcount (l : floc W) := match l with PLoop i => i | PDone => size | _ => 0 end.
  Definition held (l : floc W) : list (job W) := match l with WGot j _ => [cj j] | WSend j _ => [j] | _ => [] end.
  Definition sending (l : floc W) : list nat := match l with WSend j _ => [fst j] | _ => [] end.
  Definition clog (l : floc W) : list nat := match l with WLoop d | WGot _ d | WSend _ d | WEnd d | WDone d => d | _ => [] end.
  Definition rlog (l : floc W) : list (job W) := match l with RLoop r | RDone r => r | _ => [] end.
  Definition role (l : floc W) : nat :=
    match l with PStart | PLoop _ | PDone => 0 | RLoop _ | RDone _ => 2 | MJoin _ => 3 | _ => 1 end.

  Definition J (Qs : nat -> queue (job W)) (ls : list (floc W)) : Prop :=
    countb isPS ls + countb isPL ls + countb isPD ls = 1 /\
    countb isRL ls + countb isRD ls = 1 /\
    q_producers (Qs 0) = Z.of_nat (countb isPL ls) /\
    (0 < countb isPD ls -> q_closed (Qs 0) = true) /\
    (q_closed (Qs 0) = true -> 0 < countb isPD ls) /\
    q_producers (Qs 1) = Z.of_nat (countb isAct ls) /\
    (q_closed (Qs 1) = true -> 0 < countb isWD ls) /\
    (countb isAct ls = 0 -> 0 < countb isWD ls -> q_closed (Qs 1) = true) /\
    (0 < countb isPast ls -> q_closed (Qs 0) = true /\ q_items (Qs 0) = []) /\
    (0 < countb isRD ls -> 0 < countb isWD ls /\ q_items (Qs 1) = [] /\ countb isHeld ls = 0).

  Lemma past_wd : forall ls, countb isWD ls <= countb isPast ls.
  Proof. intros. induction ls as [|l ls IH]; [reflexivity|]. rewrite !countb_cons. destruct l; cbn [isWD isPast b2n]; lia. Qed.
  Lemma held_act : forall ls, countb isHeld ls <= countb isAct ls.
  Proof. intros. induction ls as [|l ls IH]; [reflexivity|]. rewrite !countb_cons. destruct l; cbn [isHeld isAct b2n]; lia. Qed.

  Ltac facts ET y :=
    let ts := match type of ET with nth_error ?x _ = Some _ => x end in
    pose proof (countb_upd isPS ts _ _ y ET); pose proof (countb_upd isPL ts _ _ y ET); pose proof (countb_upd isPD ts _ _ y ET);
    pose proof (countb_upd isAct ts _ _ y ET); pose proof (countb_upd isWD ts _ _ y ET); pose proof (countb_upd isPast ts _ _ y ET);
    pose proof (countb_upd isHeld ts _ _ y ET); pose proof (countb_upd isRL ts _ _ y ET); pose proof (countb_upd isRD ts _ _ y ET);
    cbn [isPS isPL isPD isAct isWD isPast isHeld isRL isRD b2n] in *.

  Ltac fin ls :=
    repeat match goal with |- _ /\ _ => split | |- _ -> _ => intro end;
    repeat match goal with
      | H : 0 < countb _ ls -> _ |- _ => specialize (H ltac:(lia))
      | H : countb _ ls = 0 -> _ |- _ => specialize (H ltac:(lia))
      | H : q_closed ?Q = true -> _, H' : q_closed ?Q = true |- _ => specialize (H H')
      | H : _ /\ _ |- _ => destruct H
      end; try lia; try congruence; auto.

  Lemma J_step : forall Qs ls Qs' ls', (forall q, queue_ok (job W) (fmax n qs q) (Qs q)) -> J Qs ls -> lstep act Qs ls Qs' ls' -> J Qs' ls'.
  Proof.
    intros Qs ls Qs' ls' QO (H1 & H2 & H3 & H4 & H5 & H6 & H7 & H8 & H9 & H10) S.
    assert (C0 : q_closed (Qs 0) = true -> countb isPL ls = 0). { intros C. destruct (QO 0) as (_ & _ & _ & X & _). specialize (X C). lia. }
    assert (C1 : q_closed (Qs 1) = true -> countb isAct ls = 0). { intros C. destruct (QO 1) as (_ & _ & _ & X & _). specialize (X C). lia. }
    pose proof (past_wd ls) as PW. pose proof (held_act ls) as HA.
    destruct S as [|t l l' ET EA|t l q v l' ET EA ER|t l q k v r ET EA EI|t l q k ET EA EI EC|t l q l' ET EA|t l q l' ET EA|t l u l' x ET EA EU EH].
    - unfold J. auto 20.
    - destruct l; cbn [floop] in EA; try discriminate; try (destruct (_ <? _); discriminate). injection EA as <-.
      facts ET (WSend (fst j, compute (snd j)) (d ++ [fst j])). unfold J. fin ls.
    - destruct l; cbn [floop] in EA; try discriminate; try (destruct (_ <? _); discriminate).
      + destruct (i <? size) eqn:EI; [|discriminate]. injection EA as <- <- <-. facts ET (@PLoop W (S i)).
        assert (countb isPL ls > 0) by (apply countb_pos; exists (PLoop i); split; [eapply nth_error_In; eauto|reflexivity]).
        unfold J. change (set_queue Qs 0 (push_item (Qs 0) (i, produce i)) 0) with (push_item (Qs 0) (i, produce i)).
        change (set_queue Qs 0 (push_item (Qs 0) (i, produce i)) 1) with (Qs 1). cbn [push_item q_closed q_producers q_items].
        fin ls.
      + injection EA as <- <- <-. facts ET (@WLoop W d).
        assert (countb isAct ls > 0) by (apply countb_pos; exists (WSend j d); split; [eapply nth_error_In; eauto|reflexivity]).
        assert (countb isHeld ls > 0) by (apply countb_pos; exists (WSend j d); split; [eapply nth_error_In; eauto|reflexivity]).
        unfold J. change (set_queue Qs 1 (push_item (Qs 1) j) 1) with (push_item (Qs 1) j).
        change (set_queue Qs 1 (push_item (Qs 1) j) 0) with (Qs 0). cbn [push_item q_closed q_producers q_items].
        fin ls.
    - destruct l; cbn [floop] in EA; try discriminate; try (destruct (_ <? _); discriminate).
      + injection EA as <- <-. facts ET (@WGot W v d).
        assert (N : countb isPast ls = 0). { destruct (Nat.eq_dec (countb isPast ls) 0); auto. destruct (H9 ltac:(lia)) as (_ & X). congruence. }
        unfold J. change (set_queue Qs 0 (pop_item (Qs 0) v r) 0) with (pop_item (Qs 0) v r).
        change (set_queue Qs 0 (pop_item (Qs 0) v r) 1) with (Qs 1). cbn [pop_item q_closed q_producers q_items].
        fin ls.
      + injection EA as <- <-. facts ET (@RLoop W (r0 ++ [v])).
        unfold J. change (set_queue Qs 1 (pop_item (Qs 1) v r) 1) with (pop_item (Qs 1) v r).
        change (set_queue Qs 1 (pop_item (Qs 1) v r) 0) with (Qs 0). cbn [pop_item q_closed q_producers q_items].
        assert (countb isRL ls > 0) by (apply countb_pos; exists (RLoop r0); split; [eapply nth_error_In; eauto|reflexivity]).
        fin ls.
    - destruct l; cbn [floop] in EA; try discriminate; try (destruct (_ <? _); discriminate).
      + injection EA as <- <-. facts ET (@WEnd W d). unfold J. fin ls.
      + injection EA as <- <-. facts ET (@RDone W r). unfold J. specialize (C1 EC). specialize (H7 EC). fin ls.
    - destruct l; cbn [floop] in EA; try discriminate; try (destruct (_ <? _); discriminate).
      + injection EA as <- <-. facts ET (@PLoop W 0).
        assert (countb isPS ls > 0) by (apply countb_pos; exists PStart; split; [eapply nth_error_In; eauto|reflexivity]).
        unfold J. change (set_queue Qs 0 (add_producer (Qs 0)) 0) with (add_producer (Qs 0)).
        change (set_queue Qs 0 (add_producer (Qs 0)) 1) with (Qs 1). unfold add_producer. cbn [q_closed q_producers q_items].
        destruct (Z.ltb_spec 0 (q_producers (Qs 0) + 1)); [|lia].
        fin ls.
      + injection EA as <- <-. facts ET (@WLoop W []).
        unfold J. change (set_queue Qs 1 (add_producer (Qs 1)) 1) with (add_producer (Qs 1)).
        change (set_queue Qs 1 (add_producer (Qs 1)) 0) with (Qs 0). unfold add_producer. cbn [q_closed q_producers q_items].
        destruct (Z.ltb_spec 0 (q_producers (Qs 1) + 1)); [|lia].
        fin ls.
    - destruct l; cbn [floop] in EA; try discriminate; try (destruct (_ <? _); discriminate).
      + destruct (i <? size) eqn:EI; [discriminate|]. injection EA as <- <-. facts ET (@PDone W).
        unfold J. change (set_queue Qs 0 (remove_producer (Qs 0)) 0) with (remove_producer (Qs 0)).
        change (set_queue Qs 0 (remove_producer (Qs 0)) 1) with (Qs 1). unfold remove_producer. cbn [q_closed q_producers q_items].
        destruct (Z.leb_spec (q_producers (Qs 0) - 1) 0); [|lia].
        fin ls.
      + injection EA as <- <-. facts ET (@WDone W d).
        unfold J. change (set_queue Qs 1 (remove_producer (Qs 1)) 1) with (remove_producer (Qs 1)).
        change (set_queue Qs 1 (remove_producer (Qs 1)) 0) with (Qs 0). unfold remove_producer. cbn [q_closed q_producers q_items].
        destruct (Z.leb_spec (q_producers (Qs 1) - 1) 0); fin ls.
    - destruct l; cbn [floop] in EA; try discriminate; try (destruct (_ <? _); discriminate).
      + destruct (k <? n + 2); [|discriminate]. injection EA as <- <-. facts ET (@MJoin W (S k)). unfold J. fin ls.
  Qed.

  (* ---------------------------------------------------------------- what happened to the jobs *)
  Definition K (Qs : nat -> queue (job W)) (ls : list (floc W)) : Prop :=
    (forall i, In (PLoop i) ls -> i <= size) /\
    q_in (Qs 0) = jobs (list_sum (map pcount ls)) /\
    Permutation (map cj (q_out (Qs 0))) (flat_map held ls ++ q_in (Qs 1)) /\
    Permutation (q_out (Qs 1)) (flat_map rlog ls) /\
    Permutation (flat_map clog ls) (flat_map sending ls ++ map fst (q_in (Qs 1))).

  Lemma no_producer : forall ls, countb isPS ls + countb isPL ls + countb isPD ls = 0 -> list_sum (map pcount ls) = 0.
  Proof.
    unfold list_sum. induction ls as [|l ls IH]; intros H; [reflexivity|]. rewrite !countb_cons in H. cbn [map fold_right].
    destruct l; cbn [isPS isPL isPD b2n pcount] in *; try lia; rewrite IH; lia.
  Qed.
  Lemma one_producer : forall ls t x, countb isPS ls + countb isPL ls + countb isPD ls = 1 -> nth_error ls t = Some x -> isPS x || isPL x || isPD x = true ->
    list_sum (map pcount ls) = pcount x.
  Proof.
    induction ls as [|l ls IH]; intros [|t] x H ET Hx; try discriminate; rewrite !countb_cons in H; cbn [nth_error] in ET; unfold list_sum in *; cbn [map fold_right].
    - injection ET as ->. pose proof (no_producer ls) as Z. unfold list_sum in Z. destruct x; try discriminate; cbn [isPS isPL isPD b2n] in H; rewrite Z by lia; lia.
    - assert (P : 0 < countb isPS ls + countb isPL ls + countb isPD ls).
      { apply orb_true_iff in Hx. destruct Hx as [Hx|Hx]; [apply orb_true_iff in Hx; destruct Hx as [Hx|Hx]|].
        - assert (0 < countb isPS ls) by (apply countb_pos; exists x; split; [eapply nth_error_In; eauto|auto]). lia.
        - assert (0 < countb isPL ls) by (apply countb_pos; exists x; split; [eapply nth_error_In; eauto|auto]). lia.
        - assert (0 < countb isPD ls) by (apply countb_pos; exists x; split; [eapply nth_error_In; eauto|auto]). lia. }
      rewrite (IH t x) by (auto; lia). destruct l; cbn [isPS isPL isPD b2n pcount] in *; lia.
  Qed.

  Ltac perms ET y :=
    let ts := match type of ET with nth_error ?x _ = Some _ => x end in
    pose proof (flat_map_upd held ts _ _ y ET) as F1; pose proof (flat_map_upd rlog ts _ _ y ET) as F2;
    pose proof (flat_map_upd clog ts _ _ y ET) as F3; pose proof (flat_map_upd sending ts _ _ y ET) as F4;
    pose proof (sum_upd pcount ts _ _ y ET) as F5;
    cbn [held rlog clog sending pcount] in F1, F2, F3, F4, F5; rewrite ?app_nil_r in F1; rewrite ?app_nil_r in F2; rewrite ?app_nil_r in F4.

  Lemma perm_drop : forall {A} (x : list A) a b c d, Permutation (a ++ x) (b ++ x) -> Permutation b (c ++ d) -> Permutation a (c ++ d).
  Proof. intros A x a b c d H1 H2. apply Permutation_app_inv_r in H1. etransitivity; eauto. Qed.

  Lemma ploop_upd : forall ls t y, (forall i, In (PLoop i) ls -> i <= size) -> (forall i, y = PLoop i -> i <= size) -> forall i, In (@PLoop W i) (upd ls t y) -> i <= size.
  Proof. intros ls t y H1 H2 i Hi. apply upd_cases in Hi. destruct Hi as [Hi|Hi]; auto. Qed.

  Lemma K_step : forall Qs ls Qs' ls', J Qs ls -> K Qs ls -> lstep act Qs ls Qs' ls' -> K Qs' ls'.
  Proof.
    intros Qs ls Qs' ls' (H1 & _) (K0 & K1 & K2 & K3 & K4) S.
    destruct S as [|t l l' ET EA|t l q v l' ET EA ER|t l q k v r ET EA EI|t l q k ET EA EI EC|t l q l' ET EA|t l q l' ET EA|t l u l' x ET EA EU EH].
    - unfold K. auto.
    - destruct l; cbn [floop] in EA; try discriminate; try (destruct (_ <? _); discriminate). injection EA as <-.
      perms ET (WSend (fst j, compute (snd j)) (d ++ [fst j])). unfold K.
      split; [apply ploop_upd; auto; discriminate|]. split; [rewrite K1; f_equal; f_equal; lia|].
      split; [etransitivity; [exact K2|]; apply Permutation_app_tail; symmetry; eapply Permutation_app_inv_r; exact F1|].
      split; [rewrite K3; symmetry; exact F2|].
      assert (X : Permutation (flat_map clog (upd ls t (WSend (fst j, compute (snd j)) (d ++ [fst j])))) (flat_map clog ls ++ [fst j])).
      { apply (Permutation_app_inv_r d). etransitivity; [exact F3|]. rewrite <- app_assoc. apply Permutation_app_head. apply Permutation_app_comm. }
      rewrite X, F4, K4. rewrite <- !app_assoc. apply Permutation_app_head. apply Permutation_app_comm.
    - destruct l; cbn [floop] in EA; try discriminate; try (destruct (_ <? _); discriminate).
      + destruct (Nat.ltb_spec i size); [|discriminate]. injection EA as <- <- <-. perms ET (@PLoop W (S i)). unfold K.
        change (set_queue Qs 0 (push_item (Qs 0) (i, produce i)) 0) with (push_item (Qs 0) (i, produce i)).
        change (set_queue Qs 0 (push_item (Qs 0) (i, produce i)) 1) with (Qs 1). cbn [push_item q_in q_out].
        pose proof (one_producer ls t (PLoop i) H1 ET eq_refl) as O. cbn [pcount] in O.
        split; [apply ploop_upd; auto; intros i0 E; injection E as <-; lia|]. split.
        { rewrite K1, O. replace (list_sum (map pcount (upd ls t (PLoop (S i))))) with (S i) by lia. rewrite seq_S, map_app. reflexivity. }
        split; [rewrite F1; exact K2|]. split; [rewrite F2; exact K3|]. rewrite F4. apply Permutation_app_inv_r in F3. rewrite F3. exact K4.
      + injection EA as <- <- <-. perms ET (@WLoop W d). unfold K.
        change (set_queue Qs 1 (push_item (Qs 1) j) 1) with (push_item (Qs 1) j).
        change (set_queue Qs 1 (push_item (Qs 1) j) 0) with (Qs 0). cbn [push_item q_in q_out].
        split; [apply ploop_upd; auto; discriminate|]. split; [rewrite K1; f_equal; f_equal; lia|].
        split; [rewrite K2, <- F1; rewrite <- !app_assoc; apply Permutation_app_head, Permutation_app_comm|].
        split; [rewrite K3; symmetry; exact F2|]. apply Permutation_app_inv_r in F3. rewrite F3, K4, <- F4, map_app. cbn [map].
        rewrite <- !app_assoc. apply Permutation_app_head, Permutation_app_comm.
    - destruct l; cbn [floop] in EA; try discriminate; try (destruct (_ <? _); discriminate).
      + injection EA as <- <-. perms ET (@WGot W v d). unfold K.
        change (set_queue Qs 0 (pop_item (Qs 0) v r) 0) with (pop_item (Qs 0) v r).
        change (set_queue Qs 0 (pop_item (Qs 0) v r) 1) with (Qs 1). cbn [pop_item q_in q_out].
        split; [apply ploop_upd; auto; discriminate|]. split; [rewrite K1; f_equal; f_equal; lia|].
        split; [rewrite map_app, K2, F1; cbn [map]; rewrite <- !app_assoc; apply Permutation_app_head, Permutation_app_comm|].
        split; [rewrite K3; symmetry; exact F2|]. apply Permutation_app_inv_r in F3. rewrite F3, F4. exact K4.
      + injection EA as <- <-. perms ET (@RLoop W (r0 ++ [v])). unfold K.
        change (set_queue Qs 1 (pop_item (Qs 1) v r) 1) with (pop_item (Qs 1) v r).
        change (set_queue Qs 1 (pop_item (Qs 1) v r) 0) with (Qs 0). cbn [pop_item q_in q_out].
        split; [apply ploop_upd; auto; discriminate|]. split; [rewrite K1; f_equal; f_equal; lia|].
        split; [rewrite F1; exact K2|]. split.
        { rewrite K3. symmetry. apply (Permutation_app_inv_r r0). etransitivity; [exact F2|]. rewrite <- app_assoc. apply Permutation_app_head, Permutation_app_comm. }
        rewrite ?app_nil_r in F3. rewrite F3, F4. exact K4.
    - destruct l; cbn [floop] in EA; try discriminate; try (destruct (_ <? _); discriminate).
      + injection EA as <- <-. perms ET (@WEnd W d). unfold K.
        split; [apply ploop_upd; auto; discriminate|]. split; [rewrite K1; f_equal; f_equal; lia|].
        split; [rewrite F1; exact K2|]. split; [rewrite F2; exact K3|]. apply Permutation_app_inv_r in F3. rewrite F3, F4. exact K4.
      + injection EA as <- <-. perms ET (@RDone W r). unfold K.
        split; [apply ploop_upd; auto; discriminate|]. split; [rewrite K1; f_equal; f_equal; lia|].
        split; [rewrite F1; exact K2|]. apply Permutation_app_inv_r in F2. split; [rewrite F2; exact K3|]. rewrite ?app_nil_r in F3. rewrite F3, F4. exact K4.
    - destruct l; cbn [floop] in EA; try discriminate; try (destruct (_ <? _); discriminate).
      + injection EA as <- <-. perms ET (@PLoop W 0). unfold K.
        change (set_queue Qs 0 (add_producer (Qs 0)) 0) with (add_producer (Qs 0)).
        change (set_queue Qs 0 (add_producer (Qs 0)) 1) with (Qs 1). unfold add_producer. cbn [q_in q_out].
        split; [apply ploop_upd; auto; intros i E; injection E as <-; lia|]. split; [rewrite K1; f_equal; f_equal; lia|].
        split; [rewrite F1; exact K2|]. split; [rewrite F2; exact K3|]. rewrite ?app_nil_r in F3. rewrite F3, F4. exact K4.
      + injection EA as <- <-. perms ET (@WLoop W []). unfold K.
        change (set_queue Qs 1 (add_producer (Qs 1)) 1) with (add_producer (Qs 1)).
        change (set_queue Qs 1 (add_producer (Qs 1)) 0) with (Qs 0). unfold add_producer. cbn [q_in q_out].
        split; [apply ploop_upd; auto; discriminate|]. split; [rewrite K1; f_equal; f_equal; lia|].
        split; [rewrite F1; exact K2|]. split; [rewrite F2; exact K3|]. rewrite ?app_nil_r in F3. rewrite F3, F4. exact K4.
    - destruct l; cbn [floop] in EA; try discriminate; try (destruct (_ <? _); discriminate).
      + destruct (Nat.ltb_spec i size); [discriminate|]. injection EA as <- <-. perms ET (@PDone W). unfold K.
        change (set_queue Qs 0 (remove_producer (Qs 0)) 0) with (remove_producer (Qs 0)).
        change (set_queue Qs 0 (remove_producer (Qs 0)) 1) with (Qs 1). unfold remove_producer. cbn [q_in q_out].
        assert (i <= size) by (apply K0; eapply nth_error_In; eauto).
        split; [apply ploop_upd; auto; discriminate|]. split; [rewrite K1; f_equal; f_equal; lia|].
        split; [rewrite F1; exact K2|]. split; [rewrite F2; exact K3|]. rewrite ?app_nil_r in F3. rewrite F3, F4. exact K4.
      + injection EA as <- <-. perms ET (@WDone W d). unfold K.
        change (set_queue Qs 1 (remove_producer (Qs 1)) 1) with (remove_producer (Qs 1)).
        change (set_queue Qs 1 (remove_producer (Qs 1)) 0) with (Qs 0). unfold remove_producer. cbn [q_in q_out].
        split; [apply ploop_upd; auto; discriminate|]. split; [rewrite K1; f_equal; f_equal; lia|].
        split; [rewrite F1; exact K2|]. split; [rewrite F2; exact K3|]. apply Permutation_app_inv_r in F3. rewrite F3, F4. exact K4.
    - destruct l; cbn [floop] in EA; try discriminate; try (destruct (_ <? _); discriminate).
      destruct (k <? n + 2); [|discriminate]. injection EA as <- <-. perms ET (@MJoin W (S k)). unfold K.
      split; [apply ploop_upd; auto; discriminate|]. split; [rewrite K1; f_equal; f_equal; lia|].
      split; [rewrite F1; exact K2|]. split; [rewrite F2; exact K3|]. rewrite ?app_nil_r in F3. rewrite F3, F4. exact K4.
  Qed.

  (* ---------------------------------------------------------------- who is where, and joins *)
  Definition roles : list nat := 0 :: repeat 1 n ++ [2; 3].
  Definition M (ls : list (floc W)) : Prop :=
    map role ls = roles /\ (forall k, In (MJoin k) ls -> k <= n + 2 /\ forall u, u < k -> exists x, nth_error ls u = Some x /\ act x = Halt).

  Lemma act_role : forall Qs ls Qs' ls', lstep act Qs ls Qs' ls' -> map role ls' = map role ls.
  Proof.
    intros Qs ls Qs' ls' S.
    destruct S as [|t l l' ET EA|t l q v l' ET EA ER|t l q k v r ET EA EI|t l q k ET EA EI EC|t l q l' ET EA|t l q l' ET EA|t l u l' x ET EA EU EH]; auto;
      apply (role_upd role ls t l); auto; destruct l; cbn [floop] in EA; try discriminate; try (destruct (_ <? _); discriminate);
      try (destruct (_ <? _); [|discriminate]); try (destruct (_ <? _); [discriminate|]); injection EA; intros; subst; try reflexivity.
  Qed.
  Lemma nth_upd_neq : forall {A} (l : list A) t u x, u <> t -> nth_error (upd l t x) u = nth_error l u.
  Proof. intros A. induction l as [|a l IH]; intros [|t] [|u] x H; cbn; try reflexivity; try congruence. apply IH. lia. Qed.
  Lemma halted_upd : forall ls t l y u x, nth_error ls t = Some l -> act l <> Halt -> nth_error ls u = Some x -> act x = Halt -> nth_error (upd ls t y) u = Some x.
  Proof. intros ls t l y u x ET Nl EU Hx. rewrite nth_upd_neq; auto. intros ->. congruence. Qed.
  Lemma M_step : forall Qs ls Qs' ls', M ls -> lstep act Qs ls Qs' ls' -> M ls'.
  Proof.
    intros Qs ls Qs' ls' (M1 & M2) S. split; [rewrite (act_role _ _ _ _ S); exact M1|].
    assert (G : forall t l y, nth_error ls t = Some l -> act l <> Halt -> (forall k, y = MJoin k -> k <= n + 2 /\ forall u, u < k -> exists x, nth_error ls u = Some x /\ act x = Halt) ->
      forall k, In (MJoin k) (upd ls t y) -> k <= n + 2 /\ forall u, u < k -> exists x, nth_error (upd ls t y) u = Some x /\ act x = Halt).
    { intros t l y ET Nl Hy k Hk. apply upd_cases in Hk.
      assert (X : k <= n + 2 /\ forall u, u < k -> exists x, nth_error ls u = Some x /\ act x = Halt) by (destruct Hk as [Hk|Hk]; [apply Hy; auto|apply M2; auto]).
      destruct X as (X1 & X2). split; auto. intros u Hu. destruct (X2 u Hu) as (x & E & Hx). exists x. split; auto. eapply halted_upd; eauto. }
    destruct S as [|t l l' ET EA|t l q v l' ET EA ER|t l q k v r ET EA EI|t l q k ET EA EI EC|t l q l' ET EA|t l q l' ET EA|t l u l' x ET EA EU EH]; auto;
      (eapply G; [exact ET|congruence|]); intros k0 E; subst; try (destruct l; cbn [floop] in EA; try discriminate; try (destruct (_ <? _); discriminate);
      try (injection EA; intros; subst; discriminate)).
    destruct (Nat.ltb_spec k (n + 2)); [|discriminate]. injection EA as <- <-.
    destruct (M2 k ltac:(eapply nth_error_In; eauto)) as (X1 & X2). split; [lia|]. intros u0 Hu. destruct (Nat.eq_dec u0 k) as [->|]; [eauto|]. apply X2. lia.
  Qed.

  Theorem invariants : forall s, reachable act start s -> J (queues s) (map loc (threads s)) /\ K (queues s) (map loc (threads s)) /\ M (map loc (threads s)).
  Proof.
    intros s HR. apply (local_invariant _ _ act (fun Qs ls => J Qs ls /\ K Qs ls /\ M ls) (fmax n qs) (fthreads n)); auto.
    - intros Qs ls Qs' ls' QO (HJ & HK & HM) S. split; [eapply J_step; eauto|]. split; [eapply K_step; eauto|]. eapply M_step; eauto.
    - assert (Z : forall p : floc W -> bool, p WStart = false -> countb p (repeat WStart n) = 0).
      { intros p Hp. apply countb_zero. intros x Hx. apply repeat_spec in Hx. subst x. exact Hp. }
      assert (Zf : forall {B} (f : floc W -> list B), f WStart = [] -> flat_map f (repeat WStart n) = []).
      { intros B f Hf. clear -Hf. induction n; cbn; auto. rewrite Hf. exact IHn0. }
      unfold fthreads. split; [|split].
      + unfold J. rewrite !countb_cons, !countb_app2, !countb_cons, !Z by reflexivity. cbn. repeat split; intros; try lia; discriminate.
      + unfold K. split; [|split; [|split; [|split]]]; cbn [new_queue q_in q_out].
        * intros i Hi. cbn in Hi. destruct Hi as [Hi|Hi]; [discriminate|]. apply in_app_or in Hi. destruct Hi as [Hi|[Hi|[Hi|[]]]]; try discriminate.
          apply repeat_spec in Hi. discriminate.
        * replace (list_sum _) with 0; [reflexivity|]. symmetry. apply (one_producer _ 0 PStart); [|reflexivity|reflexivity].
          rewrite !countb_cons, !countb_app2, !countb_cons, !Z by reflexivity. reflexivity.
        * cbn. rewrite flat_map_app, Zf by reflexivity. cbn. constructor.
        * cbn. rewrite flat_map_app, Zf by reflexivity. cbn. constructor.
        * cbn. rewrite !flat_map_app, !Zf by reflexivity. cbn. constructor.
      + split.
        * cbn. unfold roles. f_equal. rewrite map_app. f_equal. clear. induction n; cbn; congruence.
        * intros k Hk. cbn in Hk. destruct Hk as [Hk|Hk]; [discriminate|]. apply in_app_or in Hk. destruct Hk as [Hk|[Hk|[Hk|[]]]]; try discriminate.
          -- apply repeat_spec in Hk. discriminate.
          -- injection Hk as <-. split; [lia|]. intros u Hu. lia.
  Qed.

  (* ---------------------------------------------------------------- no deadlock *)
  Lemma role_at : forall ls k x, map role ls = roles -> nth_error ls k = Some x -> (k = 0 <-> role x = 0) /\ (1 <= k <= n <-> role x = 1) /\ (k = n + 1 <-> role x = 2) /\ (k = n + 2 <-> role x = 3).
  Proof.
    intros ls k x H E. assert (X : nth_error roles k = Some (role x)) by (rewrite <- H, nth_error_map, E; reflexivity).
    assert (Lk : k < n + 3). { assert (k < length roles) by (apply nth_error_Some; congruence). unfold roles in *. cbn in *. rewrite app_length, repeat_length in *. cbn in *. lia. }
    unfold roles in X. destruct k as [|k].
    - cbn in X. injection X as <-. repeat split; lia.
    - cbn in X. destruct (Nat.lt_ge_cases k n).
      + rewrite nth_error_app1 in X by (rewrite repeat_length; auto). apply nth_error_In, repeat_spec in X. rewrite X. repeat split; lia.
      + rewrite nth_error_app2 in X by (rewrite repeat_length; auto). rewrite repeat_length in X.
        destruct (k - n) as [|[|z]] eqn:Ez; cbn in X; [injection X as <-|injection X as <-|destruct z; discriminate]; repeat split; lia.
  Qed.
  Lemma thread_at : forall ls k, map role ls = roles -> k < n + 3 -> exists x, nth_error ls k = Some x.
  Proof.
    intros ls k H Hk. destruct (nth_error ls k) as [x|] eqn:E; [eauto|]. apply nth_error_None in E. exfalso.
    assert (length ls = length roles) by (rewrite <- H, map_length; reflexivity). unfold roles in *. cbn in *. rewrite app_length, repeat_length in *. cbn in *. lia.
  Qed.
  Lemma count_in : forall (p : floc W -> bool) ls k x, nth_error ls k = Some x -> p x = true -> 0 < countb p ls.
  Proof. intros p ls k x E Hp. apply countb_pos. exists x. split; auto. eapply nth_error_In; eauto. Qed.
  Lemma halt_cases : forall x, act x = Halt -> x = PDone \/ (exists d, x = WDone d) \/ (exists r, x = RDone r) \/ (exists k, x = MJoin k /\ n + 2 <= k).
  Proof.
    intros x H. destruct x; cbn [floop] in H; try discriminate; eauto; try (destruct (_ <? _); discriminate).
    destruct (Nat.ltb_spec k (n + 2)); [discriminate|]. right. right. right. eauto.
  Qed.

  Theorem for_no_deadlock : 1 <= n -> forall s, reachable act start s -> stuck act s -> finished act s.
  Proof.
    intros Hn s HR HS. destruct (invariants s HR) as ((H1 & H2 & H3 & H4 & H5 & H6 & H7 & H8 & H9 & H10) & HK & (M1 & M2)).
    pose proof (queues_ok _ _ act _ _ s HR) as QO.
    assert (ST : forall t st, nth_error (threads s) t = Some st -> nth_error (map loc (threads s)) t = Some (loc st)) by (intros t st E; rewrite nth_error_map, E; reflexivity).
    assert (TS : forall t x, nth_error (map loc (threads s)) t = Some x -> exists st, nth_error (threads s) t = Some st /\ loc st = x).
    { intros t x E. rewrite nth_error_map in E. destruct (nth_error (threads s) t) as [st|]; [|discriminate]. injection E as <-. eauto. }
    assert (SL : forall st l, In st (threads s) -> st = Sleep l ->
      (exists i, l = PLoop i /\ 0 < length (q_items (queues s 0))) \/ (exists d, l = WLoop d /\ q_items (queues s 0) = [] /\ q_closed (queues s 0) = false) \/
      (exists r, l = RLoop r /\ q_closed (queues s 1) = false)).
    { intros st l Hst ->. pose proof (sleepers_ok _ _ act _ _ s HR _ Hst) as SO. destruct (stuck_sleepers _ _ act _ _ s HR HS _ Hst) as (SP & SU). cbn in SO.
      destruct l as [|i| | |d|j d|j d|d|d|r|r|k]; cbn [floop] in SO; try (exfalso; exact SO); try (exfalso; destruct (_ <? _); exact SO).
      - destruct (i <? size) eqn:E; [|destruct SO]. left. exists i. split; auto.
        destruct (SU 0) as (m & Em & Hm); [exists (PLoop i), (i, produce i), (PLoop (S i)); split; auto; cbn [floop]; rewrite E; reflexivity|].
        cbn in Em. injection Em as <-. destruct qs; cbn in Hm; lia.
      - right. left. exists d. split; auto. apply SP. eexists. eexists. split; reflexivity.
      - destruct (SU 1) as (m & Em & Hm); [eexists; eexists; eexists; split; reflexivity|]. discriminate.
      - right. right. exists r. split; auto. apply (SP 1). eexists. eexists. split; reflexivity. }
    assert (W1 : 0 < countb isPast (map loc (threads s)) \/ q_items (queues s 0) = []).
    { destruct (thread_at (map loc (threads s)) 1 M1 ltac:(lia)) as (x & Ex). destruct (TS _ _ Ex) as (st & Es & Lx).
      destruct (role_at _ _ _ M1 Ex) as (_ & R1 & _).
      destruct (stuck_status _ _ act s HS _ _ Es) as [(l & -> & Hl)|[(l & u & l' & -> & Hl & _)|(l & ->)]]; cbn in Lx; subst x.
      - left. eapply count_in; [exact Ex|]. assert (role l = 1) as Rl by (apply R1; lia). destruct (halt_cases l Hl) as [->|[(d & ->)|[(r & ->)|(k & -> & _)]]]; try discriminate. reflexivity.
      - exfalso. assert (role l = 1) as Rl by (apply R1; lia). destruct l; cbn [floop] in Hl; try discriminate; destruct (_ <? _); discriminate.
      - assert (role l = 1) as Rl by (apply R1; lia). destruct (SL _ _ (nth_error_In _ _ Es) eq_refl) as [(i & -> & _)|[(d & -> & E & _)|(r & -> & _)]]; try discriminate. right. exact E. }
    assert (E0 : q_items (queues s 0) = []) by (destruct W1 as [W1|W1]; [apply H9 in W1; apply W1|exact W1]).
    assert (C0 : q_closed (queues s 0) = true).
    { destruct (thread_at (map loc (threads s)) 0 M1 ltac:(lia)) as (x & Ex). destruct (TS _ _ Ex) as (st & Es & Lx).
      destruct (role_at _ _ _ M1 Ex) as (R0 & _). assert (role x = 0) as Rx by (apply R0; auto).
      destruct (stuck_status _ _ act s HS _ _ Es) as [(l & -> & Hl)|[(l & u & l' & -> & Hl & _)|(l & ->)]]; cbn in Lx; subst x.
      - apply H4. eapply count_in; [exact Ex|]. destruct (halt_cases l Hl) as [->|[(d & ->)|[(r & ->)|(k & -> & _)]]]; try discriminate. reflexivity.
      - exfalso. destruct l; cbn [floop] in Hl; try discriminate; destruct (_ <? _); discriminate.
      - destruct (SL _ _ (nth_error_In _ _ Es) eq_refl) as [(i & -> & E)|[(d & -> & _)|(r & -> & _)]]; try discriminate. rewrite E0 in E. cbn in E. lia. }
    assert (NW : forall t st, nth_error (threads s) t = Some st -> 1 <= t <= n -> exists d, st = Run (WDone d)).
    { intros t st Es Ht. pose proof (ST _ _ Es) as Ex. destruct (role_at _ _ _ M1 Ex) as (_ & R1 & _). assert (role (loc st) = 1) as Rx by (apply R1; lia).
      destruct (stuck_status _ _ act s HS _ _ Es) as [(l & -> & Hl)|[(l & u & l' & -> & Hl & _)|(l & ->)]]; cbn in Rx.
      - destruct (halt_cases l Hl) as [->|[(d & ->)|[(r & ->)|(k & -> & _)]]]; try discriminate. eauto.
      - exfalso. destruct l; cbn [floop] in Hl; try discriminate; destruct (_ <? _); discriminate.
      - destruct (SL _ _ (nth_error_In _ _ Es) eq_refl) as [(i & -> & E)|[(d & -> & _ & E)|(r & -> & _)]]; try discriminate. congruence. }
    assert (NA : countb isAct (map loc (threads s)) = 0).
    { apply countb_zero. intros x Hx. apply In_nth_error in Hx. destruct Hx as (t & Ex). destruct (TS _ _ Ex) as (st & Es & Lx).
      destruct (isAct x) eqn:EA; [|reflexivity]. assert (role x = 1) as Rx by (destruct x; try discriminate; reflexivity).
      destruct (role_at _ _ _ M1 Ex) as (_ & R1 & _). destruct (NW _ _ Es ltac:(apply R1; exact Rx)) as (d & ->). cbn in Lx. subst x. discriminate. }
    assert (WD : 0 < countb isWD (map loc (threads s))).
    { destruct (thread_at (map loc (threads s)) 1 M1 ltac:(lia)) as (x & Ex). destruct (TS _ _ Ex) as (st & Es & Lx). destruct (NW _ _ Es ltac:(lia)) as (d & ->). cbn in Lx. subst x. eapply count_in; eauto. }
    assert (C1 : q_closed (queues s 1) = true) by auto.
    assert (NS : forall l, ~ In (Sleep l) (threads s)).
    { intros l Hl. destruct (SL _ _ Hl eq_refl) as [(i & -> & E)|[(d & -> & _ & E)|(r & -> & E)]]; try congruence. rewrite E0 in E. cbn in E. lia. }
    assert (NR : forall t st, nth_error (threads s) t = Some st -> t < n + 2 -> exists l, st = Run l /\ act l = Halt).
    { intros t st Es Ht. destruct (stuck_status _ _ act s HS _ _ Es) as [(l & -> & Hl)|[(l & u & l' & -> & Hl & _)|(l & ->)]].
      - eauto.
      - exfalso. pose proof (ST _ _ Es) as Ex. destruct (role_at _ _ _ M1 Ex) as (_ & _ & _ & R3). cbn in R3. destruct l; cbn [floop] in Hl; try discriminate; try (destruct (_ <? _); discriminate).
        cbn in R3. assert (t = n + 2) by (apply R3; reflexivity). lia.
      - exfalso. eapply NS. eapply nth_error_In; eauto. }
    intros st Hst. apply In_nth_error in Hst. destruct Hst as (t & Es).
    destruct (stuck_status _ _ act s HS _ _ Es) as [(l & -> & Hl)|[(l & u & l' & -> & Hl & Hu)|(l & ->)]].
    - eauto.
    - exfalso. destruct l; cbn [floop] in Hl; try discriminate; try (destruct (_ <? _); discriminate).
      destruct (Nat.ltb_spec k (n + 2)); [|discriminate]. injection Hl as <- <-.
      destruct (thread_at (map loc (threads s)) k M1 ltac:(lia)) as (x & Ex). destruct (TS _ _ Ex) as (st & Es' & _). destruct (NR _ _ Es' ltac:(lia)) as (l & -> & Hl).
      specialize (Hu _ Es'). cbn in Hu. rewrite Hl in Hu. discriminate.
    - exfalso. eapply NS. eapply nth_error_In; eauto.
  Qed.

  (* ---------------------------------------------------------------- termination *)
  Definition rho (l : floc W) : nat :=
    match l with
    | PStart => 13 * size + n + 6 | PLoop i => 13 * (size - i) + n + 5 | PDone => 0
    | WStart => n + 7 | WLoop _ => n + 6 | WGot _ _ => n + 13 | WSend _ _ => n + 12 | WEnd _ => n + 5 | WDone _ => 0
    | RLoop _ => 1 | RDone _ => 0 | MJoin k => n + 2 - k
    end.
  Definition iota (q : nat) : nat := match q with 0 => 10 | _ => 3 end.
  Lemma for_pays : forall l, pays (job W) (floc W) act rho iota (n + 3) 2 l.
  Proof.
    intros l. unfold pays. destruct l; cbn [floop]; try (cbn [rho iota]; repeat split; intros; cbn [rho iota]; lia).
    - destruct (Nat.ltb_spec i size); cbn [rho iota]; [split; lia|lia].
    - destruct (Nat.ltb_spec k (n + 2)); cbn [rho]; [lia|exact I].
  Qed.
  Lemma sum_repeat : forall (x : nat) k, list_sum (repeat x k) = k * x.
  Proof. intros. unfold list_sum. induction k; cbn; lia. Qed.
  Theorem for_bound : forall cs s, run act start cs = Some s -> length cs <= 13 * size + n * n + 10 * n + 12 + 2 * spurious cs.
  Proof.
    intros cs s E. pose proof (schedule_bound _ _ act rho iota (n + 3) 2 for_pays cs start s) as B.
    assert (L0 : length (threads start) = n + 3). { unfold fstart, initial, fthreads. cbn. rewrite map_length, app_length, repeat_length. cbn. lia. }
    specialize (B L0 E). unfold potential in B at 2. unfold fstart, initial, fthreads in B. cbn [threads queues] in B.
    cbn [map seq] in B. rewrite !map_app, !map_map in B.
    assert (R : forall k, map (fun x : floc W => weight (floc W) rho (n + 3) (Run x)) (repeat WStart k) = repeat (n + 8) k).
    { induction k; cbn [repeat map]; [reflexivity|]. rewrite IHk. f_equal. cbn [weight rho]. lia. }
    unfold list_sum in *. cbn [map fold_right] in B. rewrite R in B. rewrite fold_right_app in B. cbn [fold_right map weight rho new_queue q_items length iota] in B.
    assert (F : forall k a, fold_right Nat.add a (repeat (n + 8) k) = k * (n + 8) + a). { induction k; intros; cbn; [lia|]. rewrite IHk. lia. }
    rewrite F in B. nia.
  Qed.

  (* ---------------------------------------------------------------- results *)
  Definition produced (s : state (job W) (floc W)) : nat := list_sum (map pcount (map loc (threads s))).
  Definition computed (s : state (job W) (floc W)) : list nat := flat_map clog (map loc (threads s)).
  Definition retired (s : state (job W) (floc W)) : list (job W) := flat_map rlog (map loc (threads s)).
  Definition result (i : nat) : job W := (i, compute (produce i)).
  Definition returned (s : state (job W) (floc W)) : Prop := exists k, nth_error (threads s) (n + 2) = Some (Run (MJoin k)) /\ act (MJoin k) = Halt.

  Definition got (l : floc W) : list nat := match l with WGot j _ => [fst j] | _ => [] end.
  Lemma held_split : forall ls, Permutation (map fst (flat_map held ls)) (flat_map sending ls ++ flat_map got ls).
  Proof.
    induction ls as [|l ls IH]; [constructor|]. cbn [flat_map]. rewrite map_app, IH. destruct l; cbn [held sending got map app cj fst]; try reflexivity.
    apply Permutation_middle.
  Qed.
  Lemma cj_result : forall l, map cj (map (fun i => (i, produce i)) l) = map result l.
  Proof. intros. rewrite map_map. apply map_ext. reflexivity. Qed.

  Theorem for_stages : forall s, reachable act start s ->
    (produced s <= size) /\
    (exists rest, Permutation (computed s ++ rest) (seq 0 (produced s))) /\
    (exists rest, Permutation (retired s ++ rest) (map result (computed s))).
  Proof.
    intros s HR. destruct (invariants s HR) as ((H1 & _) & (K0 & K1 & K2 & K3 & K4) & (M1 & _)). fold (computed s) in K4. fold (retired s) in K3. fold (produced s) in K1.
    pose proof (queues_ok _ _ act _ _ s HR) as QO. destruct (QO 0) as (Q0 & _). destruct (QO 1) as (Q1 & _).
    set (ls := map loc (threads s)) in *.
    split; [|split].
    - destruct (thread_at ls 0 M1 ltac:(lia)) as (x & Ex). destruct (role_at _ _ _ M1 Ex) as (R0 & _). assert (role x = 0) as Rx by (apply R0; auto).
      unfold produced. fold ls. rewrite (one_producer ls 0 x H1 Ex) by (destruct x; try discriminate; reflexivity).
      destruct x; cbn [pcount]; try lia. apply K0. eapply nth_error_In; eauto.
    - exists (flat_map got ls ++ map fst (q_items (queues s 0))). rewrite K4.
      assert (X : Permutation (map fst (q_out (queues s 0))) (flat_map sending ls ++ flat_map got ls ++ map fst (q_in (queues s 1)))).
      { rewrite app_assoc, <- held_split, <- map_app. rewrite <- K2, map_map. cbn. reflexivity. }
      assert (Y : seq 0 (produced s) = map fst (q_out (queues s 0)) ++ map fst (q_items (queues s 0))).
      { transitivity (map fst (q_in (queues s 0))); [rewrite K1, map_map; cbn; symmetry; apply map_id|]. rewrite Q0, map_app. reflexivity. }
      rewrite Y, X. rewrite <- !app_assoc. apply Permutation_app_head. etransitivity; [apply Permutation_app_comm|]. rewrite <- app_assoc.
      apply Permutation_app_head. apply Permutation_app_comm.
    - exists (q_items (queues s 1) ++ map result (flat_map sending ls)). rewrite K4, map_app, <- K3.
      assert (X : map result (map fst (q_in (queues s 1))) = q_in (queues s 1)).
      { assert (F : forall j, In j (q_in (queues s 1)) -> result (fst j) = j).
        { intros j Hj. assert (Hc : In j (map cj (q_out (queues s 0)))). { eapply Permutation_in; [symmetry; exact K2|]. apply in_or_app. right. exact Hj. }
          apply in_map_iff in Hc. destruct Hc as (j0 & <- & Hj0). assert (Hi : In j0 (q_in (queues s 0))) by (rewrite Q0; apply in_or_app; auto).
          rewrite K1 in Hi. apply in_map_iff in Hi. destruct Hi as (i & <- & _). reflexivity. }
        rewrite map_map. rewrite <- (map_id (q_in (queues s 1))) at 2. apply map_ext_in. exact F. }
      rewrite X, Q1. rewrite app_assoc. apply Permutation_app_comm.
  Qed.

  Lemma no_held : forall ls, countb isHeld ls = 0 -> flat_map held ls = [] /\ flat_map sending ls = [].
  Proof. induction ls as [|l ls IH]; intros H; [auto|]. rewrite countb_cons in H. destruct IH as (A & B); [lia|]. cbn [flat_map]. rewrite A, B. destruct l; cbn in *; auto; lia. Qed.

  Theorem for_results : 1 <= n -> forall s, reachable act start s -> returned s ->
    produced s = size /\ Permutation (computed s) (seq 0 size) /\ Permutation (retired s) (map result (seq 0 size)).
  Proof.
    intros Hn s HR (k & Es & Hk). destruct (invariants s HR) as ((H1 & H2 & H3 & H4 & H5 & H6 & H7 & H8 & H9 & H10) & (K0 & K1 & K2 & K3 & K4) & (M1 & M2)).
    fold (computed s) in K4. fold (retired s) in K3. fold (produced s) in K1.
    pose proof (queues_ok _ _ act _ _ s HR) as QO. destruct (QO 0) as (Q0 & _). destruct (QO 1) as (Q1 & _).
    assert (HM : forall u, u < n + 2 -> exists x, nth_error (map loc (threads s)) u = Some x /\ act x = Halt).
    { intros u Hu. apply (M2 k); [|destruct (halt_cases _ Hk) as [X|[(d & X)|[(r & X)|(k2 & X & Y)]]]; try discriminate; injection X as ->; lia].
      change (MJoin k) with (loc (Run (@MJoin W k))). apply in_map. eapply nth_error_In; eauto. }
    set (ls := map loc (threads s)) in *.
    assert (P : produced s = size).
    { destruct (HM 0 ltac:(lia)) as (x & Ex & Hx). destruct (role_at _ _ _ M1 Ex) as (R0 & _). assert (role x = 0) as Rx by (apply R0; auto).
      destruct (halt_cases _ Hx) as [->|[(d & ->)|[(r & ->)|(k2 & -> & Y)]]]; try discriminate. unfold produced. fold ls. rewrite (one_producer ls 0 PDone H1 Ex); reflexivity. }
    assert (I0 : q_items (queues s 0) = []).
    { apply H9. destruct (HM 1 ltac:(lia)) as (x & Ex & Hx). destruct (role_at _ _ _ M1 Ex) as (_ & R1 & _). assert (role x = 1) as Rx by (apply R1; lia).
      destruct (halt_cases _ Hx) as [->|[(d & ->)|[(r & ->)|(k2 & -> & Y)]]]; try discriminate. eapply count_in; eauto. }
    assert (I1 : 0 < countb isRD ls).
    { destruct (HM (n + 1) ltac:(lia)) as (x & Ex & Hx). destruct (role_at _ _ _ M1 Ex) as (_ & _ & R2 & _). assert (role x = 2) as Rx by (apply R2; auto).
      destruct (halt_cases _ Hx) as [->|[(d & ->)|[(r & ->)|(k2 & -> & Y)]]]; try discriminate. eapply count_in; eauto. }
    destruct (H10 I1) as (_ & I2 & I3). destruct (no_held ls I3) as (N1 & N2). rewrite N1 in K2. rewrite N2 in K4. cbn [app] in K2, K4.
    rewrite I0, app_nil_r in Q0. rewrite I2, app_nil_r in Q1. rewrite <- Q0, K1, P, cj_result in K2.
    split; [exact P|]. split.
    - rewrite K4, <- K2, map_map. cbn. rewrite map_id. reflexivity.
    - rewrite <- K3, <- Q1. symmetry. exact K2.
  Qed.

  (** Without compute threads the reporter waits for ever, even when there is nothing to do. *)
  Theorem for_zero_threads : n = 0 -> forall s, reachable act start s -> ~ returned s.
  Proof.
    intros Hn s HR (k & Es & Hk). destruct (invariants s HR) as ((H1 & H2 & H3 & H4 & H5 & H6 & H7 & H8 & H9 & H10) & _ & (M1 & M2)).
    assert (Hk2 : n + 2 <= k) by (destruct (halt_cases _ Hk) as [X|[(d & X)|[(r & X)|(k2 & X & Y)]]]; try discriminate; injection X as ->; lia).
    destruct (M2 k ltac:(change (MJoin k) with (loc (Run (@MJoin W k))); apply in_map; eapply nth_error_In; eauto)) as (_ & HM).
    destruct (HM (n + 1) ltac:(lia)) as (x & Ex & Hx). destruct (role_at _ _ _ M1 Ex) as (_ & _ & R2 & _). assert (role x = 2) as Rx by (apply R2; auto).
    destruct (halt_cases _ Hx) as [->|[(d & ->)|[(r & ->)|(k2 & -> & Y)]]]; try discriminate.
    destruct H10 as (WD & _); [eapply count_in; eauto|]. apply countb_pos in WD. destruct WD as (y & Hy & Py). apply In_nth_error in Hy. destruct Hy as (t & Ey).
    destruct (role_at _ _ _ M1 Ey) as (_ & R1 & _). assert (role y = 1) as Ry by (destruct y; try discriminate; reflexivity). apply R1 in Ry. lia.
  Qed.
End Proofs.
